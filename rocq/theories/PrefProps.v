(** * C43: preference files *)
From Coq Require Import ZArith Bool Ascii String Lia List.
From Verif Require Import PrefModel PrefSpec PrefProofs.
Import ListNotations.

(** [b] is the uninitialised stack buffer. *)

(** lines that say nothing or give a pair: the result holds, for every name,
    the first value given to it and nothing else, whatever follows the last
    newline *)
Theorem C43_parse : forall ls ks rest b, Forall2 says ls ks -> Forall short ls -> Forall harmless ks ->
  short rest -> length b = 256%nat ->
  exists m, parse_preferences b (file_of ls rest) = Done m /\ NoDup (map fst m) /\
    forall n, lookup m n = value_of (pairs ks) n.
Proof.
  intros ls ks rest b W SH HM [N L] B. destruct (parse_ok ls ks W SH HM rest b B) as (f & b' & _ & F & E).
  exists (add_all (pairs ks) []). rewrite E. split; [|split].
  - destruct f as [|f]; [lia|]. cbn [lines]. change (Z.to_nat (BUF - 1)) with 255%nat. rewrite getline_end by assumption. reflexivity.
  - apply add_all_nodup. constructor.
  - intros n. rewrite lookup_value, add_all_value. reflexivity.
Qed.
(** every line has exactly one meaning *)
Theorem C43_meaning : forall l, exists k, says l k.
Proof. exact says_total. Qed.
Theorem C43_meaning_unique : forall l k k', (length l <= 255)%nat -> says l k -> says l k' -> k = k'.
Proof.
  intros l k k' L K K'. destruct (store_eq l (repeat NUL 256) (repeat_length _ _) L) as (post & _ & B).
  pose proof (line_ok l k K post [] B) as O. pose proof (line_ok l k' K' post [] B) as O'.
  destruct k as [|n v| |], k' as [|n' v'| |]; cbn [outcome_of] in *; try reflexivity; try congruence;
    repeat match goal with H : exists _, _ |- _ => destruct H as (? & _ & ?) end; try congruence.
  - rewrite O in H. injection H as _ H. unfold insert in H. cbn in H. discriminate.
  - rewrite O' in H. injection H as _ H. unfold insert in H. cbn in H. discriminate.
  - rewrite H in H0. injection H0 as _ -> ->. reflexivity.
Qed.
(** the first line that is refused or has an empty side decides the outcome *)
Theorem C43_refused : forall ls ks l rest b, Forall2 says ls ks -> Forall short ls -> Forall harmless ks ->
  short l -> length b = 256%nat ->
  (says l Refused -> parse_preferences b (file_of ls (l ++ nl :: rest)) = Threw) /\
  (says l Stray -> parse_preferences b (file_of ls (l ++ nl :: rest)) = Outside).
Proof.
  intros ls ks l rest b W SH HM Sl B. destruct (parse_ok ls ks W SH HM (l ++ nl :: rest) b B) as (f & b' & B' & F & E).
  destruct f as [|f]; [lia|]. rewrite E.
  split; intros K; rewrite (line_bad l _ K (fun x => x) Sl f rest b' _ B'); reflexivity.
Qed.
(** access outside the buffer happens only at a line with an empty side *)
Theorem C43_inside : forall ls ks rest b, Forall2 says ls ks -> Forall short ls -> short rest -> length b = 256%nat ->
  ~ In Stray ks -> parse_preferences b (file_of ls rest) <> Outside /\ parse_preferences b (file_of ls rest) <> Forever.
Proof.
  intros ls ks rest b W SH Sr B NS.
  assert (Forall harmless ks \/ exists ls1 ks1 l ls2, ls = ls1 ++ l :: ls2 /\ Forall2 says ls1 ks1 /\ Forall harmless ks1 /\ says l Refused) as [HM|D].
  { clear -W NS. induction W as [|l k ls ks K W IH]; [left; constructor|].
    destruct k as [|n v| |].
    1,2: destruct IH as [HM|(ls1 & ks1 & l' & ls2 & -> & W1 & H1 & R)]; [intros I; apply NS; right; exact I|left; constructor; [exact I|exact HM]|right].
    - exists (l :: ls1), (Nothing :: ks1), l', ls2. split; [reflexivity|]. split; [constructor; assumption|]. split; [constructor; [exact I|exact H1]|exact R].
    - exists (l :: ls1), (Pair n v :: ks1), l', ls2. split; [reflexivity|]. split; [constructor; assumption|]. split; [constructor; [exact I|exact H1]|exact R].
    - right. exists [], [], l, ls. split; [reflexivity|]. split; [constructor|]. split; [constructor|exact K].
    - exfalso. apply NS. left. reflexivity. }
  - destruct (C43_parse ls ks rest b W SH HM Sr B) as (m & -> & _). split; discriminate.
  - destruct D as (ls1 & ks1 & l & ls2 & -> & W1 & H1 & R).
    apply Forall_app in SH. destruct SH as [SH1 SH2]. apply Forall_cons_iff in SH2. destruct SH2 as [Sl _].
    assert (file_of (ls1 ++ l :: ls2) rest = file_of ls1 (l ++ nl :: file_of ls2 rest)) as ->.
    { unfold file_of. rewrite map_app, concat_app. cbn [map concat]. rewrite <- !app_assoc. reflexivity. }
    rewrite (proj1 (C43_refused ls1 ks1 l _ b W1 SH1 H1 Sl B) R). split; discriminate.
Qed.
Print Assumptions C43_parse.
Print Assumptions C43_meaning.
Print Assumptions C43_meaning_unique.
Print Assumptions C43_refused.
Print Assumptions C43_inside.

(** ** where the code departs from the property *)
Definition str (s : string) : txt := list_ascii_of_string s.
(** "a=1" without a newline at the end of the file is lost *)
Theorem C43_last_line_refuted : forall b, exists l n v, says l (Pair n v) /\ short l /\
  parse_preferences b (file_of [] l) = Done [].
Proof.
  intros b. exists (str "a=1"), (str "a"), (str "1"). split; [|split].
  - apply (s_pair 0 0 0 0 (str "a") (str "1")); try (split; discriminate); try discriminate; cbn; intuition discriminate.
  - split; [cbn; intuition discriminate|cbn; lia].
  - reflexivity.
Qed.
Print Assumptions C43_last_line_refuted.
(** "a=" and "=1" make the code index before the string *)
Theorem C43_empty_refuted : forall b, length b = 256%nat ->
  parse_preferences b (file_of [str "a="] []) = Outside /\ parse_preferences b (file_of [str "=1"] []) = Outside.
Proof.
  intros b B. split.
  - apply (C43_refused [] [] (str "a=") [] b); try constructor; try exact B; try (cbn; lia); try (cbn; intuition discriminate).
    apply (s_empty_value 0 0 (str "a")); try (split; discriminate); try discriminate; cbn; intuition discriminate.
  - apply (C43_refused [] [] (str "=1") [] b); try constructor; try exact B; try (cbn; lia); try (cbn; intuition discriminate).
Qed.
Print Assumptions C43_empty_refuted.
(** a line of 256 characters or more never terminates, even a comment *)
Theorem C43_long_line_refuted : forall b l rest, length b = 256%nat -> ~ In nl l -> (255 < length l)%nat ->
  hd_error l = Some "#"%char -> parse_preferences b (file_of [] (l ++ nl :: rest)) = Forever.
Proof.
  intros b l rest B N L H. unfold parse_preferences. cbn [file_of map concat app].
  destruct l as [|c l]; [discriminate H|]. injection H as ->.
  rewrite (line_long ("#"%char :: l) (nl :: rest) N L _ b [] B Nothing); [reflexivity|]. cbn [firstn]. constructor.
Qed.
Print Assumptions C43_long_line_refuted.

(** ** a file with a comment, blanks around names, an empty line and a repeated
    name *)
Example C43_case : forall b, length b = 256%nat -> exists m,
  parse_preferences b (file_of [str "# run"; []; str "  tend = 5 d "; str "dt=200"; str "dt = 7"; str "note=  "] (str "x")) = Done m /\
  lookup m (str "tend") = Some (str "5 d") /\ lookup m (str "dt") = Some (str "200") /\
  lookup m (str "note") = Some [] /\ lookup m (str "x") = None.
Proof.
  intros b B.
  destruct (C43_parse [str "# run"; []; str "  tend = 5 d "; str "dt=200"; str "dt = 7"; str "note=  "]
    [Nothing; Nothing; Pair (str "tend") (str "5 d"); Pair (str "dt") (str "200"); Pair (str "dt") (str "7"); Pair (str "note") []] (str "x") b) as (m & E & _ & V).
  - constructor; [exact (s_comment (str " run"))|]. constructor; [exact s_blank|].
    constructor; [apply (s_pair 2 1 1 1 (str "tend") (str "5 d")); try (split; discriminate); try discriminate; cbn; intuition discriminate|].
    constructor; [apply (s_pair 0 0 0 0 (str "dt") (str "200")); try (split; discriminate); try discriminate; cbn; intuition discriminate|].
    constructor; [apply (s_pair 0 1 1 0 (str "dt") (str "7")); try (split; discriminate); try discriminate; cbn; intuition discriminate|].
    constructor; [apply (s_pair 0 0 2 0 (str "note") []); try (split; discriminate); try discriminate; cbn; intuition discriminate|constructor].
  - repeat constructor; cbn; try lia; intuition discriminate.
  - repeat constructor.
  - split; [cbn; intuition discriminate|cbn; lia].
  - exact B.
  - exists m. rewrite !V. split; [exact E|]. repeat split; reflexivity.
Qed.
