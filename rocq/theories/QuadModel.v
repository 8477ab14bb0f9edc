(** * Gauss and Gauss-Lobatto quadrature
    src/base/GaussQuadrature.cpp and src/base/GaussLobattoQuadrature.cpp.  The
    tabulated decimals are stored as integers in units of 10^-16 (exactly). *)
From Coq Require Import ZArith Reals List.
Import ListNotations.
Local Open Scope Z_scope.

(** [Invalid]: _EXCEPTION1; [Roots]: the points come from LegendrePolynomial
    (not tabulated, not modelled here) *)
Inductive rule := Table (g w : list Z) | Roots | Invalid.

(** GaussLobattoQuadrature::GetPoints, src/base/GaussLobattoQuadrature.cpp:25-182 *)
Definition lobatto_table (n : Z) : rule :=
  if n <? 2 then Invalid
  else match n with
  | 2 => Table [-10000000000000000; 10000000000000000]
      [10000000000000000; 10000000000000000]
  | 3 => Table [-10000000000000000; 0; 10000000000000000]
      [3333333333333330; 13333333333333340; 3333333333333330]
  | 4 => Table [-10000000000000000; -4472135954999580; 4472135954999580; 10000000000000000]
      [1666666666666670; 8333333333333330; 8333333333333330; 1666666666666670]
  | 5 => Table [-10000000000000000; -6546536707079770; 0; 6546536707079770; 10000000000000000]
      [1000000000000000; 5444444444444450; 7111111111111100; 5444444444444450; 1000000000000000]
  | 6 => Table [-10000000000000000; -7650553239294650; -2852315164806450; 2852315164806450; 7650553239294650; 10000000000000000]
      [666666666666670; 3784749562978470; 5548583770354860; 5548583770354860; 3784749562978470; 666666666666670]
  | 7 => Table [-10000000000000000; -8302238962785670; -4688487934707140; 0; 4688487934707140; 8302238962785670; 10000000000000000]
      [476190476190480; 2768260473615660; 4317453812098620; 4876190476190480; 4317453812098620; 2768260473615660; 476190476190480]
  | 8 => Table [-10000000000000000; -8717401485096070; -5917001814331420; -2092992179024790; 2092992179024790; 5917001814331420; 8717401485096070; 10000000000000000]
      [357142857142860; 2107042271435060; 3411226924835050; 4124587946587030; 4124587946587030; 3411226924835050; 2107042271435060; 357142857142860]
  | 9 => Table [-10000000000000000; -8997579954114600; -6771862795107380; -3631174638261780; 0; 3631174638261780; 6771862795107380; 8997579954114600; 10000000000000000]
      [277777777777780; 1654953615608060; 2745387125001620; 3464285109730460; 3715192743764170; 3464285109730460; 2745387125001620; 1654953615608060; 277777777777780]
  | 10 => Table [-10000000000000000; -9195339081664590; -7387738651055050; -4779249498104440; -1652789576663870; 1652789576663870; 4779249498104440; 7387738651055050; 9195339081664590; 10000000000000000]
      [222222222222220; 1333059908510700; 2248893420631260; 2920426836796840; 3275397611838970; 3275397611838970; 2920426836796840; 2248893420631260; 1333059908510700; 222222222222220]
  | _ => Roots
  end.
(** GaussQuadrature::GetPoints, src/base/GaussQuadrature.cpp:23-185 *)
Definition gauss_table (n : Z) : rule :=
  if n <? 1 then Invalid
  else match n with
  | 1 => Table [0]
      [20000000000000000]
  | 2 => Table [-5773502691896257; 5773502691896257]
      [10000000000000000; 10000000000000000]
  | 3 => Table [-7745966692414834; 0; 7745966692414834]
      [5555555555555556; 8888888888888888; 5555555555555556]
  | 4 => Table [-8611363115940526; -3399810435848563; 3399810435848563; 8611363115940526]
      [3478548451374538; 6521451548625461; 6521451548625461; 3478548451374538]
  | 5 => Table [-9061798459386640; -5384693101056831; 0; 5384693101056831; 9061798459386640]
      [2369268850561891; 4786286704993665; 5688888888888889; 4786286704993665; 2369268850561891]
  | 6 => Table [-9324695142031521; -6612093864662645; -2386191860831969; 2386191860831969; 6612093864662645; 9324695142031521]
      [1713244923791704; 3607615730481386; 4679139345726910; 4679139345726910; 3607615730481386; 1713244923791704]
  | 7 => Table [-9491079123427585; -7415311855993945; -4058451513773972; 0; 4058451513773972; 7415311855993945; 9491079123427585]
      [1294849661688697; 2797053914892766; 3818300505051189; 4179591836734694; 3818300505051189; 2797053914892766; 1294849661688697]
  | 8 => Table [-9602898564975363; -7966664774136267; -5255324099163290; -1834346424956498; 1834346424956498; 5255324099163290; 7966664774136267; 9602898564975363]
      [1012285362903763; 2223810344533745; 3137066458778873; 3626837833783620; 3626837833783620; 3137066458778873; 2223810344533745; 1012285362903763]
  | 9 => Table [-10000000000000000; -8997579954114600; -6771862795107380; -3631174638261780; 0; 3631174638261780; 6771862795107380; 8997579954114600; 10000000000000000]
      [812743883615744; 1806481606948574; 2606106964029354; 3123470770400029; 3302393550012598; 3123470770400029; 2606106964029354; 1806481606948574; 812743883615744]
  | 10 => Table [-9739065285171717; -8650633666889845; -6794095682990244; -4333953941292472; -1488743389816312; 1488743389816312; 4333953941292472; 6794095682990244; 8650633666889845; 9739065285171717]
      [666713443086881; 1494513491505806; 2190863625159820; 2692667193099963; 2955242247147529; 2955242247147529; 2692667193099963; 2190863625159820; 1494513491505806; 666713443086881]
  | _ => Roots
  end.

(** the decimal as a real number *)
Definition dec (z : Z) : R := (IZR z / IZR (10 ^ 16))%R.

(** GetPoints on [dXi0, dXi1], GaussLobattoQuadrature.cpp:206-222 and
    GaussQuadrature.cpp:202-218 *)
Local Open Scope R_scope.
Definition scale_node (a b g : R) : R := a + 1 / 2 * (b - a) * (g + 1).
Definition scale_weight (a b w : R) : R := 1 / 2 * (b - a) * w.
Definition get_points (r : rule) (a b : R) : option (list R * list R) :=
  match r with
  | Table g w => Some (map (fun z => scale_node a b (dec z)) g, map (fun z => scale_weight a b (dec z)) w)
  | _ => None
  end.
