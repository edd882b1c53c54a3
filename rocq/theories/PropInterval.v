(** * Claims C01, C02, C03, C04 : interval sets. *)
From Coq Require Import ZArith List Bool Lia ZifyBool.
From Verif Require Import IntervalModel IntervalFacts.
Import ListNotations.
Open Scope Z_scope.

(** ** Specification side: programs over interval sets and the sets of numbers
       they denote (no reference to the list representation). *)
Inductive iexp :=
| EEmpty                         (* CanonicalIntervalSet() *)
| ERange (s e : Z)               (* get_interval_set(s, e) *)
| EAdd (a : iexp) (s e : Z)      (* a.add_interval(Interval(s, e)) *)
| EHole (a : iexp) (s e : Z)     (* a.add_hole(Interval(s, e)) *)
| EOr (a b : iexp)               (* a | b *)
| EAnd (a b : iexp)              (* a & b *)
| ESub (a b : iexp).             (* a - b *)

Fixpoint denot (p : iexp) (x : Z) : Prop :=
  match p with
  | EEmpty => False
  | ERange s e => s <= x <= e
  | EAdd a s e => denot a x \/ s <= x <= e
  | EHole a s e => denot a x /\ ~ (s <= x <= e)
  | EOr a b => denot a x \/ denot b x
  | EAnd a b => denot a x /\ denot b x
  | ESub a b => denot a x /\ ~ denot b x
  end.

(** All intervals handed to the API have start <= end. *)
Fixpoint ordered (p : iexp) : Prop :=
  match p with
  | EEmpty => True
  | ERange s e => s <= e
  | EAdd a s e | EHole a s e => ordered a /\ s <= e
  | EOr a b | EAnd a b | ESub a b => ordered a /\ ordered b
  end.

(** Running the program on the model. [None] would be a Python exception or a
    non-terminating search. *)
Fixpoint run (p : iexp) : option iset :=
  match p with
  | EEmpty => Some []
  | ERange s e => Some (get_interval_set s e)
  | EAdd a s e => match run a with Some l => add_interval l (Ivl s e) | None => None end
  | EHole a s e => match run a with Some l => Some (add_hole l (Ivl s e)) | None => None end
  | EOr a b => match run a, run b with Some l, Some m => iset_or l m | _, _ => None end
  | EAnd a b => match run a, run b with Some l, Some m => Some (iset_and l m) | _, _ => None end
  | ESub a b => match run a, run b with Some l, Some m => Some (iset_sub l m) | _, _ => None end
  end.

Lemma run_ok : forall p, ordered p ->
  exists l, run p = Some l /\ canonical l /\ forall x, mem x l <-> denot p x.
Proof.
  induction p; simpl; intros H.
  - exists []. repeat split; auto; rewrite ?mem_nil; try tauto.
  - exists (get_interval_set s e). split; auto. split; [apply canonical_singleton; auto|].
    intros x. unfold get_interval_set. rewrite mem_cons, mem_nil. simpl. tauto.
  - destruct H as [H1 H2]. destruct (IHp H1) as (l & -> & C & M).
    destruct (add_interval_ok l (Ivl s e) C H2) as (l' & E & C' & M' & _). exists l'. split; auto. split; auto.
    intros x. rewrite M', M. simpl. tauto.
  - destruct H as [H1 H2]. destruct (IHp H1) as (l & -> & C & M).
    destruct (add_hole_ok l (Ivl s e) C H2) as (C' & M' & _). eexists; split; [reflexivity|]. split; auto.
    intros x. rewrite M', M. simpl. tauto.
  - destruct H as [H1 H2]. destruct (IHp1 H1) as (l & -> & C & M), (IHp2 H2) as (m & -> & C2 & M2).
    destruct (iset_or_ok m l C C2) as (r & E & C' & M' & _). exists r. split; auto. split; auto.
    intros x. rewrite M', M, M2. tauto.
  - destruct H as [H1 H2]. destruct (IHp1 H1) as (l & -> & C & M), (IHp2 H2) as (m & -> & C2 & M2).
    destruct (iset_and_ok l m C C2) as (C' & M'). eexists; split; [reflexivity|]. split; auto.
    intros x. rewrite M', M, M2. tauto.
  - destruct H as [H1 H2]. destruct (IHp1 H1) as (l & -> & C & M), (IHp2 H2) as (m & -> & C2 & M2).
    destruct (iset_sub_ok m l C C2) as (C' & M' & _). eexists; split; [reflexivity|]. split; auto.
    intros x. rewrite M', M, M2. tauto.
Qed.

(** C01: every program with ordered intervals runs without exception and yields
    exactly the numbers it denotes. *)
Theorem C01_interval_algebra_exact : forall p, ordered p ->
  exists l, run p = Some l /\ forall x, (exists i, In i l /\ lo i <= x <= hi i) <-> denot p x.
Proof. intros p H. destruct (run_ok p H) as (l & E & _ & M). exists l. split; auto. Qed.

(** C02: reachable sets are sorted with gaps ... *)
Definition sorted_with_gaps (l : iset) : Prop :=
  (forall i, In i l -> lo i <= hi i) /\
  (forall k a b, nth_error l k = Some a -> nth_error l (S k) = Some b -> hi a + 1 < lo b).

Lemma canonical_sorted_with_gaps : forall l, canonical l -> sorted_with_gaps l.
Proof.
  intros l H. split; [intros; eapply canonical_in; eauto|].
  apply canonical_from in H as [b H]. revert b H. induction l as [|i l IH]; intros b H k a c Ha Hc.
  - destruct k; discriminate.
  - simpl in H. destruct H as (H1 & H2 & H3). destruct k as [|k].
    + simpl in Ha, Hc. injection Ha as <-. destruct l; [discriminate|]. simpl in Hc. injection Hc as <-.
      simpl in H3. lia.
    + simpl in Ha, Hc. eapply IH; eauto.
Qed.

Theorem C02_interval_sets_canonical : forall p, ordered p ->
  exists l, run p = Some l /\ sorted_with_gaps l /\ (iset_bool l = true <-> exists x, denot p x).
Proof.
  intros p H. destruct (run_ok p H) as (l & E & C & M). exists l. split; auto.
  split; [apply canonical_sorted_with_gaps; auto|].
  rewrite iset_bool_ok by auto. split; intros [x Hx]; exists x; apply M; auto.
Qed.

(** ... and compare equal iff they have the same numbers. *)
Theorem C02_interval_equality_exact : forall p q, ordered p -> ordered q ->
  exists l m, run p = Some l /\ run q = Some m /\
    (iset_eqb l m = true <-> forall x, denot p x <-> denot q x).
Proof.
  intros p q Hp Hq. destruct (run_ok p Hp) as (l & E & C & M), (run_ok q Hq) as (m & E2 & C2 & M2).
  exists l, m. split; auto. split; auto. rewrite iset_eqb_eq. split.
  - intros ->. intros x. rewrite <- M, <- M2. tauto.
  - intros H. apply canonical_ext; auto. intros x. rewrite M, M2. auto.
Qed.

(** The precondition start <= end matters: nothing in the class rejects a reversed
    interval, and adding one (no number at all) yields a set that no longer compares
    equal to the same set of numbers. *)
Theorem C02_reversed_interval_refuted :
  exists l l', add_interval [Ivl 1 3] (Ivl 10 5) = Some l' /\ run (ERange 1 3) = Some l /\
    (forall x, mem x l' <-> mem x l) /\ iset_eqb l' l = false.
Proof.
  exists [Ivl 1 3], [Ivl 1 3; Ivl 10 5]. repeat split; try reflexivity; unfold mem; simpl.
  - intros (i & [<-|[<-|[]]] & H); simpl in H; [|lia]. exists (Ivl 1 3); simpl; auto.
  - intros (i & [<-|[]] & H); simpl in H. exists (Ivl 1 3); simpl; auto.
Qed.

(** C03: containment, overlap and membership. *)
Theorem C03_interval_queries_exact : forall p q, ordered p -> ordered q ->
  exists l m, run p = Some l /\ run q = Some m /\
    (exists b, contained_in l m = Some b /\ (b = true <-> forall x, denot p x -> denot q x)) /\
    (iset_overlaps l m = true <-> exists x, denot p x /\ denot q x) /\
    (forall x, exists b, iset_contains l x = Some b /\ (b = true <-> denot p x)).
Proof.
  intros p q Hp Hq. destruct (run_ok p Hp) as (l & E & C & M), (run_ok q Hq) as (m & E2 & C2 & M2).
  exists l, m. split; auto. split; auto. split; [|split].
  - destruct (contained_in_ok l m C C2) as (b & Eb & Hb). exists b. split; auto. rewrite Hb.
    split; intros H x Hx; apply M2, H, M; auto || (apply M2; auto).
  - rewrite iset_overlaps_ok by auto. split; intros (x & H1 & H2); exists x; split; try apply M; try apply M2; auto.
  - intros x. destruct (iset_contains_ok l x C) as (b & Eb & Hb). exists b. split; auto. rewrite Hb. apply M.
Qed.

(** The binary searches return an index in range or -1, for every canonical set. *)
Theorem C03_searches_terminate_in_range : forall p x, ordered p -> lo x <= hi x ->
  exists l a b, run p = Some l /\ find_left l x = Some a /\ find_right l x = Some b /\
    -1 <= a < Z.of_nat (length l) /\ -1 <= b < Z.of_nat (length l).
Proof.
  intros p x Hp Hx. destruct (run_ok p Hp) as (l & E & C & M).
  destruct (canon_split3 l x C Hx) as (L & N & R & -> & HL & HM & HR).
  exists (L ++ N ++ R), (Z.of_nat (length L) - 1),
    (match R with [] => -1 | _ => Z.of_nat (length (L ++ N)) end).
  split; auto.
  assert (V : forall i, In i (L ++ N ++ R) -> lo i <= hi i) by (intros; eapply canonical_in; eauto).
  split; [|split].
  - apply find_left_spec; intros i Hi; [apply HL in Hi; lia|].
    pose proof (V i). rewrite !in_app_iff in *. destruct Hi as [Hi|Hi]; [apply HM in Hi; lia|].
    apply HR in Hi as H'. specialize (H (or_intror (or_intror Hi))). lia.
  - rewrite app_assoc. apply find_right_spec; intros i Hi; [|apply HR in Hi; lia].
    pose proof (V i). rewrite !in_app_iff in *. destruct Hi as [Hi|Hi]; [|apply HM in Hi; lia].
    apply HL in Hi as H'. specialize (H (or_introl Hi)). lia.
  - rewrite !app_length. destruct R; simpl length; lia.
Qed.

(** ** C04: printed lists. *)
(** Reading an item list back: the numbers an item stands for. *)
Definition item_denot (n : num_or_range) (x : Z) : Prop :=
  match n with Num k => x = k | Range a b => a <= x <= b end.

Theorem C04_printed_items_denote_the_set : forall p, ordered p ->
  exists l, run p = Some l /\
    forall x, (exists n, In n (iset_list_numbers_and_ranges l) /\ item_denot n x) <-> denot p x.
Proof.
  intros p H. destruct (run_ok p H) as (l & E & C & M). exists l. split; auto.
  intros x. rewrite <- M. unfold iset_list_numbers_and_ranges, mem. split.
  - intros (n & Hn & Hx). apply in_map_iff in Hn as (i & <- & Hi). exists i. split; auto.
    destruct (Z.eqb_spec (lo i) (hi i)); simpl in Hx; lia.
  - intros (i & Hi & Hx). eexists. split; [apply in_map; eauto|]. simpl.
    destruct (Z.eqb_spec (lo i) (hi i)); simpl; lia.
Qed.

(** Examples: the hypotheses are met by non-trivial programs. *)
Definition ex_prog : iexp :=
  ESub (EAdd (EOr (ERange 1 100) (ERange 200 300)) 101 150) (EHole (ERange 40 60) 50 50).
Example C01_example : ordered ex_prog /\
  run ex_prog = Some [Ivl 1 39; Ivl 50 50; Ivl 61 150; Ivl 200 300].
Proof. split; [simpl; lia | vm_compute; reflexivity]. Qed.

Example C02_example : exists l m, run (EOr (ERange 1 5) (ERange 6 9)) = Some l /\ run (ERange 1 9) = Some m /\
  iset_eqb l m = true.
Proof. do 2 eexists. repeat split; vm_compute; reflexivity. Qed.

Example C03_example : exists l m, run (EOr (ERange 1 5) (ERange 16 19)) = Some l /\
  run (EHole (ERange 1 90) 10 12) = Some m /\ contained_in l m = Some true /\ contained_in m l = Some false /\
  iset_overlaps l m = true /\ find_left m (Ivl 13 14) = Some 0 /\ find_right l (Ivl 7 8) = Some 1.
Proof. do 2 eexists. repeat split; vm_compute; reflexivity. Qed.

Example C04_example : exists l, run ex_prog = Some l /\
  iset_list_numbers_and_ranges l = [Range 1 39; Num 50; Range 61 150; Range 200 300].
Proof. eexists. split; vm_compute; reflexivity. Qed.

Print Assumptions C01_interval_algebra_exact.
Print Assumptions C02_interval_sets_canonical.
Print Assumptions C02_interval_equality_exact.
Print Assumptions C02_reversed_interval_refuted.
Print Assumptions C03_interval_queries_exact.
Print Assumptions C03_searches_terminate_in_range.
Print Assumptions C04_printed_items_denote_the_set.
