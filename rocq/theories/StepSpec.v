(** Specification of the time steppers: Runge-Kutta methods by their
    published coefficients.  Vectors are functions X -> R. *)
From Coq Require Import ZArith List Bool Reals.
Import ListNotations.
Local Open Scope R_scope.

(** sum of c_j * v_j over two lists (the shorter one decides) *)
Fixpoint dot (c v : list R) : R :=
  match c, v with a :: c', x :: v' => a * x + dot c' v' | _, _ => 0 end.

Section Rk.
Context {X : Type}.
Notation vec := (X -> R).
Definition at_ (ks : list vec) (x : X) : list R := map (fun k => k x) ks.

(** Butcher tableau: k_i = F (u + dt sum_j a_ij k_j), u' = u + dt sum_j b_j k_j *)
Fixpoint rk_slopes (A : list (list R)) (F : vec -> vec) (dt : R) (u : vec) (ks : list vec) : list vec :=
  match A with
  | [] => ks
  | a :: A' => rk_slopes A' F dt u (ks ++ [F (fun x => u x + dt * dot a (at_ ks x))])
  end.
Definition rk (A : list (list R)) (b : list R) (F : vec -> vec) (dt : R) (u : vec) : vec :=
  fun x => u x + dt * dot b (at_ (rk_slopes A F dt u []) x).

(** Shu-Osher form: u_i = sum_j alpha_ij u_j + dt beta_i F(u_(i-1)) *)
Fixpoint shu_osher (al : list (list R * R)) (F : vec -> vec) (dt : R) (us : list vec) : vec :=
  match al with
  | [] => last us (fun _ => 0)
  | (a, be) :: al' =>
      shu_osher al' F dt
        (us ++ [fun x => dot a (at_ us x) + dt * be * F (last us (fun _ => 0)) x])
  end.

(** Additive Runge-Kutta pair:
    Y_i = u + dt sum_j a_ij F(Y_j) + dt sum_j ahat_ij G(Y_j),
    u' = u + dt sum_j b_j F(Y_j) + dt sum_j bhat_j G(Y_j) *)
Definition ark (A Ah : list (list R)) (b bh : list R) (F G : vec -> vec) (dt : R) (u u' : vec) : Prop :=
  exists Ys : list vec,
    length Ys = length A /\ length Ys = length Ah /\
    (forall i Y a ah, nth_error Ys i = Some Y -> nth_error A i = Some a -> nth_error Ah i = Some ah ->
       forall x, Y x = u x + dt * dot a (at_ (map F Ys) x) + dt * dot ah (at_ (map G Ys) x)) /\
    forall x, u' x = u x + dt * dot b (at_ (map F Ys) x) + dt * dot bh (at_ (map G Ys) x).

(** Generalised additive pair: separate stages Y (explicit) and Z (implicit) *)
Definition gark (EE EI IE II : list (list R)) (b bh : list R) (F G : vec -> vec) (dt : R) (u u' : vec) : Prop :=
  exists Ys Zs : list vec,
    length Ys = length EE /\ length Zs = length II /\
    (forall i Y a c, nth_error Ys i = Some Y -> nth_error EE i = Some a -> nth_error EI i = Some c ->
       forall x, Y x = u x + dt * dot a (at_ (map F Ys) x) + dt * dot c (at_ (map G Zs) x)) /\
    (forall i Z a c, nth_error Zs i = Some Z -> nth_error IE i = Some a -> nth_error II i = Some c ->
       forall x, Z x = u x + dt * dot a (at_ (map F Ys) x) + dt * dot c (at_ (map G Zs) x)) /\
    forall x, u' x = u x + dt * dot b (at_ (map F Ys) x) + dt * dot bh (at_ (map G Zs) x).
End Rk.

(** ** Published coefficients *)
Definition fe_A : list (list R) := [[]].
Definition fe_b : list R := [1].
(** Kutta 1901 *)
Definition rk4_A : list (list R) := [[]; [1/2]; [0; 1/2]; [0; 0; 1]].
Definition rk4_b : list R := [1/6; 1/3; 1/3; 1/6].
(** Shu and Osher 1988 *)
Definition ssp3_A : list (list R) := [[]; [1]; [1/4; 1/4]].
Definition ssp3_b : list R := [1/6; 1/6; 2/3].
(** Guerra and Ullrich 2016, (3,5) *)
Definition kgu_A : list (list R) := [[]; [1/5]; [0; 1/5]; [0; 0; 1/3]; [0; 0; 0; 2/3]].
Definition kgu_b : list R := [1/4; 0; 0; 0; 3/4].
(** Ruuth 2006, SSP(5,3), 15 decimals: rows of alpha with the single beta *)
Definition ssp53 : list (list R * R) :=
  [([1], 0.377268915331368);
   ([0; 1], 0.377268915331368);
   ([0.355909775063327; 0; 0.644090224936674], 0.242995220537396);
   ([0.367933791638137; 0; 0; 0.632066208361863], 0.238458932846290);
   ([0; 0; 0.237593836598569; 0; 0.762406163401431], 0.287632146308408)].

(** Ascher, Ruuth and Spiteri 1997, section 2.6: (2,2,2) *)
Definition ars222_A (g d : R) := [[0; 0; 0]; [g; 0; 0]; [d; 1 - d; 0]].
Definition ars222_b (d : R) := [d; 1 - d; 0].
Definition ars222_Ah (g : R) := [[0; 0; 0]; [0; g; 0]; [0; 1 - g; g]].
Definition ars222_bh (g : R) := [0; 1 - g; g].
(** section 2.5: (2,3,2) *)
Definition ars232_A (g d : R) := [[0; 0; 0]; [g; 0; 0]; [d; 1 - d; 0]].
Definition ars232_b (g : R) := [0; 1 - g; g].
Definition ars232_Ah (g : R) := [[0; 0; 0]; [0; g; 0]; [0; 1 - g; g]].
Definition ars232_bh (g : R) := [0; 1 - g; g].
(** section 2.7: (3,4,3) *)
Definition ars343_A (g a31 a32 a41 a42 a43 : R) :=
  [[0; 0; 0; 0]; [g; 0; 0; 0]; [a31; a32; 0; 0]; [a41; a42; a43; 0]].
Definition ars343_Ah (g b1 b2 : R) :=
  [[0; 0; 0; 0]; [0; g; 0; 0]; [0; (1 - g) / 2; g; 0]; [0; b1; b2; g]].
Definition ars343_b (g b1 b2 : R) := [0; b1; b2; g].
(** section 2.8: (4,4,3) *)
Definition ars443_A : list (list R) :=
  [[0; 0; 0; 0; 0]; [1/2; 0; 0; 0; 0]; [11/18; 1/18; 0; 0; 0]; [5/6; -5/6; 1/2; 0; 0]; [1/4; 7/4; 3/4; -7/4; 0]].
Definition ars443_b : list R := [1/4; 7/4; 3/4; -7/4; 0].
Definition ars443_Ah : list (list R) :=
  [[0; 0; 0; 0; 0]; [0; 1/2; 0; 0; 0]; [0; 1/6; 1/2; 0; 0]; [0; -1/2; 1/2; 1/2; 0]; [0; 3/2; -3/2; 1/2; 1/2]].
Definition ars443_bh : list R := [0; 3/2; -3/2; 1/2; 1/2].
(** Pareschi and Russo 2005, table 5: SSP3(3,3,2) *)
Definition ssp332_A : list (list R) := [[0; 0; 0]; [1; 0; 0]; [1/4; 1/4; 0]].
Definition ssp332_Ah (g : R) := [[g; 0; 0]; [1 - 2 * g; g; 0]; [1/2 - g; 0; g]].
Definition ssp332_b : list R := [1/6; 1/6; 2/3].
(** Sandu and Guenther 2013, example 7, alpha = 1/2 *)
Definition gark2_EE : list (list R) := [[0; 0]; [1; 0]].
Definition gark2_EI : list (list R) := [[0; 0]; [1; 0]].
Definition gark2_IE (g : R) := [[g; 0]; [1/2; 1/2]].
Definition gark2_II (g : R) := [[g; 0]; [1 - g; g]].
Definition gark2_b : list R := [1/2; 1/2].
Definition gark2_bh (g : R) := [1 - g; g].
(** Giraldo, Kelly and Constantinescu 2013: ARK(2,3,2) *)
Definition ark232_A (g a : R) := [[0; 0; 0]; [2 * g; 0; 0]; [1 - a; a; 0]].
Definition ark232_Ah (g d : R) := [[0; 0; 0]; [g; g; 0]; [d; d; g]].
Definition ark232_b (g d : R) := [d; d; g].

(** Order conditions of a tableau (c_i: row sums) *)
Definition rsums (A : list (list R)) : list R := map (fold_right Rplus 0) A.
Definition order1 (b : list R) : Prop := fold_right Rplus 0 b = 1.
Definition order2 (A : list (list R)) (b : list R) : Prop := dot b (rsums A) = 1/2.
Definition order3 (A : list (list R)) (b : list R) : Prop :=
  dot b (map (fun c => c * c) (rsums A)) = 1/3 /\ dot b (map (fun a => dot a (rsums A)) A) = 1/6.
(** classical fourth order *)
Definition order4 (A : list (list R)) (b : list R) : Prop :=
  let c := rsums A in
  let mul2 := fun u v : list R => map (fun p => fst p * snd p) (combine u v) in
  let ap := fun v : list R => map (fun a => dot a v) A in
  dot b (mul2 c (mul2 c c)) = 1/4 /\ dot b (mul2 c (ap c)) = 1/8 /\
  dot b (ap (mul2 c c)) = 1/12 /\ dot b (ap (ap c)) = 1/24.

(** Order conditions of an additive pair, including the coupling conditions *)
Definition ark_order1 (b bh : list R) : Prop := order1 b /\ order1 bh.
Definition ark_order2 (A Ah : list (list R)) (b bh : list R) : Prop :=
  forall w M, In w [b; bh] -> In M [A; Ah] -> dot w (rsums M) = 1/2.
Definition ark_order3 (A Ah : list (list R)) (b bh : list R) : Prop :=
  forall w M N, In w [b; bh] -> In M [A; Ah] -> In N [A; Ah] ->
    dot w (map (fun p => fst p * snd p) (combine (rsums M) (rsums N))) = 1/3 /\
    dot w (map (fun a => dot a (rsums N)) M) = 1/6.
Definition gark_order2 (EE EI IE II : list (list R)) (b bh : list R) : Prop :=
  (forall M, In M [EE; EI] -> dot b (rsums M) = 1/2) /\ forall M, In M [IE; II] -> dot bh (rsums M) = 1/2.
