(** * The choices of the command line
    src/base/STLStringHelper.h and src/atm/TempestInitialize.h: from the values of the
    options to the parts of the model.  Strings are Coq strings; a character from 128 on
    is negative as a char, and tolower is undefined for it unless it is EOF (C locale
    otherwise).  The model is fresh, so that SetTimestepScheme, SetHorizontalDynamics,
    SetVerticalDynamics and SetGrid do not throw; what the constructors do with their
    arguments is not part of this file. *)
From Coq Require Import Reals ZArith String Ascii List Bool.
Import ListNotations.
Local Open Scope string_scope.

(** what a set-up comes to: its result, the exception with its message, or undefined *)
Inductive outcome (A : Type) := Done (a : A) | Throws (msg : string) | Undefined.
Arguments Done {A}. Arguments Throws {A}. Arguments Undefined {A}.
Definition bind {A B} (o : outcome A) (f : A -> outcome B) : outcome B :=
  match o with Done a => f a | Throws m => Throws m | Undefined => Undefined end.

(** tolower and toupper of a char *)
Definition within_code (lo hi c : N) : bool := (N.leb lo c && N.leb c hi)%bool.
Definition shifted (from : N) (d : Z) (a : ascii) : option ascii :=
  let c := N_of_ascii a in
  if N.eqb c 255 then Some a
  else if N.leb 128 c then None
  else Some (if within_code from (from + 25) c then ascii_of_N (Z.to_N (Z.of_N c + d)) else a).
Definition tolower : ascii -> option ascii := shifted 65 32.
Definition toupper : ascii -> option ascii := shifted 97 (-32).
(** ToLower and ToUpper, STLStringHelper.h:39-44, 48-53 *)
Fixpoint each (f : ascii -> option ascii) (s : string) : outcome string :=
  match s with
  | EmptyString => Done EmptyString
  | String a r => match f a with None => Undefined | Some b => bind (each f r) (fun r' => Done (String b r')) end
  end.
Definition to_lower : string -> outcome string := each tolower.
Definition to_upper : string -> outcome string := each toupper.

(** a chain of comparisons with literals, the last branch an exception *)
Fixpoint select {A} (l : list (string * A)) (msg : string) (s : string) : outcome A :=
  match l with
  | [] => Throws msg
  | (name, a) :: r => if String.eqb s name then Done a else select r msg s
  end.

(** the explicit methods, TimestepSchemeStrang.h:40-46, TimestepSchemeERK.h:40-46 *)
Inductive stages := ForwardEuler | RungeKutta4 | RungeKuttaSSP3 | KinnmarkGrayUllrich35 | RungeKuttaSSPRK53.
Inductive scheme :=
| Strang (off_centering : R) (e : stages) | Erk (e : stages) | Ars222 | Ars232 | Ark232 | Gark2 | Ars343 | Ars343b | Ars443 | Ssp3332 | SplitExp.
(** TempestInitialize.h:193-284; the defaults of the constructors,
    TimestepSchemeStrang.h:52-56, TimestepSchemeERK.h:52-55 *)
Definition schemes : list (string * scheme) :=
  [("strang", Strang 0 KinnmarkGrayUllrich35); ("strang/fe", Strang 0 ForwardEuler); ("strang/rk4", Strang 0 RungeKutta4);
   ("strang/rk3", Strang 0 RungeKuttaSSP3); ("strang/kgu35", Strang 0 KinnmarkGrayUllrich35); ("strang/ssprk53", Strang 0 RungeKuttaSSPRK53);
   ("erk", Erk KinnmarkGrayUllrich35); ("erk/fe", Erk ForwardEuler); ("erk/rk4", Erk RungeKutta4);
   ("erk/rk3", Erk RungeKuttaSSP3); ("erk/kgu35", Erk KinnmarkGrayUllrich35); ("erk/ssprk53", Erk RungeKuttaSSPRK53);
   ("ars222", Ars222); ("ars232", Ars232); ("ark232", Ark232); ("gark2", Gark2); ("ars343", Ars343); ("ars343b", Ars343b);
   ("ars443", Ars443); ("ssp3_332", Ssp3332); ("spex", SplitExp)].
Definition no_scheme : string := "Invalid timescheme".

(** the values of the options, 66-107, as far as the set-up uses them; [restart_zero] is
    timeOutputRestartDeltaT.IsZero() *)
Record options := Options {
  o_scheme : string; o_hmethod : string; o_vmethod : string; o_stagger : string; o_disc : string; o_stretch : string; o_restart : string;
  o_levels : Z; o_no_hypervis : bool; o_nu : R; o_nud : R; o_nuv : R; o_inud : R; o_hypervis_order : Z;
  o_no_output : bool; o_restart_zero : bool; o_explicit : bool; o_no_ref : bool; o_mass_flux : bool }.

(** 305-353: the class, then order and coefficients *)
Inductive h_class := HV1 | HV2 | HSplit | HHighSpeed.
Record horizontal := Horizontal { h_kind : h_class; h_order : Z; h_nu : R; h_nud : R; h_nuv : R; h_inud : R }.
Definition h_classes : list (string * h_class) := [("v1", HV1); ("v2", HV2); ("spex", HSplit); ("hs", HHighSpeed)].
(** 361-408; the flags are those of the constructor: fully explicit, reference state,
    mass flux on levels *)
Inductive v_class := VV1 | VV2 | VSchur.
Inductive vertical := VStub | VDyn (c : v_class) (explicit use_ref mass_flux : bool).
Definition v_classes (o : options) : list (string * vertical) :=
  let full c := VDyn c (o_explicit o) (negb (o_no_ref o)) (o_mass_flux o) in
  [("v1", full VV1); ("v2", full VV2); ("schur", full VSchur); ("none", VStub)].

Record methods := Methods { the_scheme : scheme; the_horizontal : horizontal; the_vertical : vertical }.
(** _TempestSetupMethodOfLines, 185-409.  ToLower writes to the options: the result has
    the options as they are afterwards. *)
Definition set_scheme o v := Options v (o_hmethod o) (o_vmethod o) (o_stagger o) (o_disc o) (o_stretch o) (o_restart o) (o_levels o) (o_no_hypervis o) (o_nu o) (o_nud o) (o_nuv o) (o_inud o) (o_hypervis_order o) (o_no_output o) (o_restart_zero o) (o_explicit o) (o_no_ref o) (o_mass_flux o).
Definition set_hmethod o v := Options (o_scheme o) v (o_vmethod o) (o_stagger o) (o_disc o) (o_stretch o) (o_restart o) (o_levels o) (o_no_hypervis o) (o_nu o) (o_nud o) (o_nuv o) (o_inud o) (o_hypervis_order o) (o_no_output o) (o_restart_zero o) (o_explicit o) (o_no_ref o) (o_mass_flux o).
Definition set_vmethod o v := Options (o_scheme o) (o_hmethod o) v (o_stagger o) (o_disc o) (o_stretch o) (o_restart o) (o_levels o) (o_no_hypervis o) (o_nu o) (o_nud o) (o_nuv o) (o_inud o) (o_hypervis_order o) (o_no_output o) (o_restart_zero o) (o_explicit o) (o_no_ref o) (o_mass_flux o).
Definition set_stagger o v := Options (o_scheme o) (o_hmethod o) (o_vmethod o) v (o_disc o) (o_stretch o) (o_restart o) (o_levels o) (o_no_hypervis o) (o_nu o) (o_nud o) (o_nuv o) (o_inud o) (o_hypervis_order o) (o_no_output o) (o_restart_zero o) (o_explicit o) (o_no_ref o) (o_mass_flux o).
Definition set_disc o v := Options (o_scheme o) (o_hmethod o) (o_vmethod o) (o_stagger o) v (o_stretch o) (o_restart o) (o_levels o) (o_no_hypervis o) (o_nu o) (o_nud o) (o_nuv o) (o_inud o) (o_hypervis_order o) (o_no_output o) (o_restart_zero o) (o_explicit o) (o_no_ref o) (o_mass_flux o).
Definition set_stretch o v := Options (o_scheme o) (o_hmethod o) (o_vmethod o) (o_stagger o) (o_disc o) v (o_restart o) (o_levels o) (o_no_hypervis o) (o_nu o) (o_nud o) (o_nuv o) (o_inud o) (o_hypervis_order o) (o_no_output o) (o_restart_zero o) (o_explicit o) (o_no_ref o) (o_mass_flux o).
(** 297-301 *)
Definition drop_nu o := if o_no_hypervis o then Options (o_scheme o) (o_hmethod o) (o_vmethod o) (o_stagger o) (o_disc o) (o_stretch o) (o_restart o) (o_levels o) (o_no_hypervis o) 0 0 0 (o_inud o) (o_hypervis_order o) (o_no_output o) (o_restart_zero o) (o_explicit o) (o_no_ref o) (o_mass_flux o) else o.

Definition setup_methods (o : options) : outcome (methods * options) :=
  bind (to_lower (o_scheme o)) (fun s => let o := set_scheme o s in
  bind (select schemes no_scheme (o_scheme o)) (fun sch => let o := drop_nu o in
  bind (to_lower (o_hmethod o)) (fun s => let o := set_hmethod o s in
  bind (select h_classes "Invalid --hmethod" (o_hmethod o)) (fun hc =>
  bind (to_lower (o_stagger o)) (fun s => let o := set_stagger o s in
  bind (to_lower (o_vmethod o)) (fun s => let o := set_vmethod o s in
  bind (if (o_levels o =? 1)%Z then Done VStub else select (v_classes o) "Invalid --vmethod" (o_vmethod o)) (fun vd =>
  Done (Methods sch (Horizontal hc (o_hypervis_order o) (o_nu o) (o_nud o) (o_nuv o) (o_inud o)) vd, o)))))))).

Inductive discretization := FiniteElement | FiniteVolume.
Inductive staggering := Levels | Interfaces | Lorenz | CharneyPhillips.
Inductive stretching := Uniform | Cubic | PiecewiseLinear.
Definition discretizations := [("fe", FiniteElement); ("fv", FiniteVolume)].
Definition staggerings := [("lev", Levels); ("int", Interfaces); ("lor", Lorenz); ("cph", CharneyPhillips)].
Definition stretchings := [("uniform", Uniform); ("cubic", Cubic); ("pwlinear", PiecewiseLinear)].

(** the grid: built from the options, with the number of patches asked for, or read from
    a restart file *)
Inductive grid := Built (patches levels : Z) (d : discretization) (s : staggering) (w : stretching) | FromFile (name : string).
(** the output managers in the order of their attachment, 413-472 *)
Inductive manager := Reference | Composite | Checksum.
Definition managers (o : options) : list manager :=
  (if o_no_output o then [] else [Reference]) ++ (if o_restart_zero o then [] else [Composite]) ++ [Checksum].
Record setup := Setup { s_methods : methods; s_grid : grid; s_managers : list manager }.

(** 487-517 and 605-635, common to both *)
Definition setup_vertical (o : options) : outcome (discretization * staggering * options) :=
  bind (to_lower (o_disc o)) (fun s => let o := set_disc o s in
  bind (select discretizations "Invalid value for --vdisc" (o_disc o)) (fun d =>
  bind (to_lower (o_stagger o)) (fun s => let o := set_stagger o s in
  bind (select staggerings "Invalid value for --vstagger" (o_stagger o)) (fun g => Done (d, g, o))))).
(** _TempestSetupCubedSphereModel, 476-586; [ranks] is the size of the communicator *)
Definition setup_sphere (ranks : Z) (o : options) : outcome setup :=
  bind (setup_methods o) (fun mo => let '(m, o) := mo in
  bind (setup_vertical o) (fun dgo => let '(d, g, o) := dgo in
  bind (if String.eqb (o_restart o) "" then
          bind (to_lower (o_stretch o)) (fun s => let o := set_stretch o s in
          bind (select stretchings "Invalid value for --vstretch" (o_stretch o)) (fun w =>
          bind (to_lower (o_disc o)) (fun _ => Done (Built (if (ranks <? 6)%Z then 6 else ranks) (o_levels o) d g w))))
        else Done (FromFile (o_restart o))) (fun gr => Done (Setup m gr (managers o))))).
(** _TempestSetupCartesianModel, 590-703: line 669 lowers strHorizontalDynamics where the
    other function lowers strVerticalStretch, 550 *)
Definition setup_cartesian (ranks : Z) (o : options) : outcome setup :=
  bind (setup_methods o) (fun mo => let '(m, o) := mo in
  bind (setup_vertical o) (fun dgo => let '(d, g, o) := dgo in
  bind (if String.eqb (o_restart o) "" then
          bind (to_lower (o_hmethod o)) (fun s => let o := set_hmethod o s in
          bind (select stretchings "Invalid value for --vstretch" (o_stretch o)) (fun w => Done (Built ranks (o_levels o) d g w)))
        else Done (FromFile (o_restart o))) (fun gr => Done (Setup m gr (managers o))))).
