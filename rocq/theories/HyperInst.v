(** * A concrete instance of the layer values of hyper-cube sets.

    Dimension values in the code are CanonicalIntervalSet objects (numeric dimensions,
    nca/CoreDS/CanonicalIntervalSet.py) or MinDFA objects (hosts and paths,
    nca/CoreDS/MinDFA.py).  [VI l] is a CanonicalIntervalSet, with the operations of
    IntervalModel.v.  [VN co l] stands for a MinDFA: MinDFA is a wrapper around the
    external library greenery, and languages are simplified here to finite ([co = false])
    and co-finite ([co = true]) sets of words, words being coded as numbers.  The theorems
    about hyper-cube sets do not depend on this choice: they hold for all values obeying
    the laws [vlaws]; this file shows that the laws are satisfiable and hold of the
    modelled interval sets. *)
From Coq Require Import ZArith List Bool Lia ZifyBool.
From Verif Require Import IntervalModel IntervalFacts HyperModel HyperFacts.
Import ListNotations.
Open Scope Z_scope.

Inductive val := VI (l : iset) | VN (co : bool) (l : iset).

Definition oset (o : option iset) : iset := match o with Some l => l | None => [] end.
Definition obool (o : option bool) : bool := match o with Some b => b | None => false end.

(** A number above all members. *)
Definition fresh (l : iset) : Z := fold_right (fun i m => Z.max m (hi i + 1)) 0 l.

(** CanonicalIntervalSet.py: __and__ 173, __or__ 189, __sub__ 206; MinDFA.py: __and__ 179,
    __or__ 161, __sub__ 198 (as set operations on languages). *)
Definition val_and (a b : val) : val :=
  match a, b with
  | VI l, VI m => VI (iset_and l m)
  | VN false l, VN false m => VN false (iset_and l m)
  | VN false l, VN true m => VN false (iset_sub l m)
  | VN true l, VN false m => VN false (iset_sub m l)
  | VN true l, VN true m => VN true (oset (iset_or l m))
  | _, _ => VI []
  end.
Definition val_or (a b : val) : val :=
  match a, b with
  | VI l, VI m => VI (oset (iset_or l m))
  | VN false l, VN false m => VN false (oset (iset_or l m))
  | VN false l, VN true m => VN true (iset_sub m l)
  | VN true l, VN false m => VN true (iset_sub l m)
  | VN true l, VN true m => VN true (iset_and l m)
  | _, _ => VI []
  end.
Definition val_sub (a b : val) : val :=
  match a, b with
  | VI l, VI m => VI (iset_sub l m)
  | VN _ _, VN co m => val_and a (VN (negb co) m)
  | _, _ => VI []
  end.
Definition val_bool (a : val) : bool := match a with VI l | VN false l => iset_bool l | VN true _ => true end.
Definition val_eqb (a b : val) : bool :=
  match a, b with
  | VI l, VI m => iset_eqb l m
  | VN c l, VN c' m => Bool.eqb c c' && iset_eqb l m
  | _, _ => false
  end.
Definition val_cont (a b : val) : bool :=
  match a, b with
  | VI l, VI m => obool (contained_in l m)
  | _, _ => negb (val_bool (val_sub a b))
  end.
Definition val_in (x : Z) (a : val) : bool :=
  match a with
  | VI l | VN false l => obool (iset_contains l x)
  | VN true l => negb (obool (iset_contains l x))
  end.
Definition val_rep (a : val) : Z :=
  match a with
  | VI l | VN false l => match iset_rep l with Some x => x | None => 0 end
  | VN true l => fresh l
  end.

(** [dom] is the table of DimensionsManager.py:27-37 (dimension -> domain). *)
Definition val_ops (dom : dim -> val) : vops val Z :=
  VOps _ _ val_and val_or val_sub val_bool val_eqb val_cont val_in val_rep dom
       (fun d v => val_eqb v (dom d)).

Definition val_mem (x : Z) (a : val) : Prop :=
  match a with VI l | VN false l => mem x l | VN true l => ~ mem x l end.

Definition kind_ok (a b : val) : Prop := match a, b with VI _, VI _ | VN _ _, VN _ _ => True | _, _ => False end.
Definition val_wf (a : val) : Prop := match a with VI l | VN _ l => canonical l end.
Definition val_valid (dom : dim -> val) (d : dim) (a : val) : Prop :=
  val_wf a /\ kind_ok a (dom d) /\ (forall x, val_mem x a -> val_mem x (dom d)).

(** Each domain is a non-empty interval set or the set of all words. *)
Definition doms_ok (dom : dim -> val) : Prop :=
  forall d, match dom d with VI l => canonical l /\ l <> [] | VN co l => co = true /\ l = [] end.

Lemma fresh_above l x : mem x l -> x < fresh l.
Proof.
  induction l as [|i l IH]; intros H; [apply mem_nil in H; tauto|].
  apply mem_cons in H. simpl. destruct H as [H|H]; [lia|]. specialize (IH H). lia.
Qed.
Lemma fresh_not_mem l : ~ mem (fresh l) l.
Proof. intro H. apply fresh_above in H. lia. Qed.

Lemma mem_dec l x : mem x l \/ ~ mem x l.
Proof.
  induction l as [|i l IH].
  - right. rewrite mem_nil. tauto.
  - rewrite mem_cons. destruct (Z_le_dec (lo i) x), (Z_le_dec x (hi i)); destruct IH; try (left; lia); try tauto; right; lia.
Qed.

Lemma or_oset l m : canonical l -> canonical m ->
  canonical (oset (iset_or l m)) /\ forall x, mem x (oset (iset_or l m)) <-> mem x l \/ mem x m.
Proof. intros H1 H2. destruct (iset_or_ok m l H1 H2) as (r & E & C & M & _). rewrite E. simpl. auto. Qed.

Lemma contains_obool l x : canonical l -> (obool (iset_contains l x) = true <-> mem x l).
Proof. intros H. destruct (iset_contains_ok l x H) as (b & E & Hb). rewrite E. auto. Qed.

Lemma val_and_ok a b : val_wf a -> val_wf b -> kind_ok a b ->
  val_wf (val_and a b) /\ kind_ok (val_and a b) a /\
  forall x, val_mem x (val_and a b) <-> val_mem x a /\ val_mem x b.
Proof.
  destruct a as [l|[|] l], b as [m|[|] m]; cbn [val_wf kind_ok val_and val_mem]; intros W1 W2 K; try contradiction.
  - destruct (iset_and_ok l m W1 W2). auto.
  - destruct (or_oset l m W1 W2) as [A B]. split; auto. split; auto. intro x. rewrite B. tauto.
  - destruct (iset_sub_ok l m W2 W1) as [A [B _]]. split; auto. split; auto. intro x. rewrite B. tauto.
  - destruct (iset_sub_ok m l W1 W2) as [A [B _]]. split; auto.
  - destruct (iset_and_ok l m W1 W2). auto.
Qed.

Lemma val_or_ok a b : val_wf a -> val_wf b -> kind_ok a b ->
  val_wf (val_or a b) /\ kind_ok (val_or a b) a /\
  forall x, val_mem x (val_or a b) <-> val_mem x a \/ val_mem x b.
Proof.
  destruct a as [l|[|] l], b as [m|[|] m]; cbn [val_wf kind_ok val_or val_mem]; intros W1 W2 K; try contradiction.
  - destruct (or_oset l m W1 W2). auto.
  - destruct (iset_and_ok l m W1 W2) as [A B]. split; auto. split; auto. intro x. rewrite B.
    destruct (mem_dec l x), (mem_dec m x); tauto.
  - destruct (iset_sub_ok m l W1 W2) as [A [B _]]. split; auto. split; auto. intro x. rewrite B.
    destruct (mem_dec l x), (mem_dec m x); tauto.
  - destruct (iset_sub_ok l m W2 W1) as [A [B _]]. split; auto. split; auto. intro x. rewrite B.
    destruct (mem_dec l x), (mem_dec m x); tauto.
  - destruct (or_oset l m W1 W2). auto.
Qed.

Lemma val_mem_dec a x : val_mem x a \/ ~ val_mem x a.
Proof. destruct a as [l|[|] l]; simpl; destruct (mem_dec l x); tauto. Qed.

Lemma val_sub_ok a b : val_wf a -> val_wf b -> kind_ok a b ->
  val_wf (val_sub a b) /\ kind_ok (val_sub a b) a /\
  forall x, val_mem x (val_sub a b) <-> val_mem x a /\ ~ val_mem x b.
Proof.
  intros W1 W2 K. destruct a as [l|c l], b as [m|c' m]; cbn [kind_ok] in K; try contradiction.
  - simpl in *. destruct (iset_sub_ok m l W1 W2) as [A [B _]]. auto.
  - cbn [val_sub]. destruct (val_and_ok (VN c l) (VN (negb c') m)) as [A [B C]]; auto.
    split; auto. split; auto. intro x. rewrite C. destruct c'; simpl; destruct (mem_dec m x); tauto.
Qed.

Lemma val_bool_ok a : val_wf a -> (val_bool a = true <-> exists x, val_mem x a).
Proof.
  destruct a as [l|[|] l]; simpl; intros W; try apply iset_bool_ok; auto.
  split; auto. intros _. exists (fresh l). apply fresh_not_mem.
Qed.

Lemma val_eqb_ok a b : val_wf a -> val_wf b -> kind_ok a b ->
  (val_eqb a b = true <-> forall x, val_mem x a <-> val_mem x b).
Proof.
  destruct a as [l|c l], b as [m|c' m]; cbn [val_wf kind_ok val_eqb]; intros W1 W2 K; try contradiction.
  - rewrite iset_eqb_eq. split; [intros -> x; tauto|]. intro H. apply canonical_ext; auto.
  - rewrite andb_true_iff, eqb_true_iff, iset_eqb_eq. split; [intros [-> ->] x; tauto|]. intro H.
    assert (Ec : c = c').
    { destruct c, c'; auto; exfalso.
      - specialize (H (Z.max (fresh l) (fresh m))). simpl in H.
        assert (~ mem (Z.max (fresh l) (fresh m)) l) by (intro X; apply fresh_above in X; lia).
        assert (~ mem (Z.max (fresh l) (fresh m)) m) by (intro X; apply fresh_above in X; lia). tauto.
      - specialize (H (Z.max (fresh l) (fresh m))). simpl in H.
        assert (~ mem (Z.max (fresh l) (fresh m)) l) by (intro X; apply fresh_above in X; lia).
        assert (~ mem (Z.max (fresh l) (fresh m)) m) by (intro X; apply fresh_above in X; lia). tauto. }
    split; auto. subst c'. apply canonical_ext; auto. intro x. specialize (H x).
    destruct c; simpl in H; auto. destruct (mem_dec l x), (mem_dec m x); tauto.
Qed.

Lemma val_cont_ok a b : val_wf a -> val_wf b -> kind_ok a b ->
  (val_cont a b = true <-> forall x, val_mem x a -> val_mem x b).
Proof.
  intros W1 W2 K.
  assert (G : negb (val_bool (val_sub a b)) = true <-> forall x, val_mem x a -> val_mem x b).
  { destruct (val_sub_ok a b W1 W2 K) as [A [B C]]. rewrite negb_true_iff. split.
    - intros E x Hx. destruct (val_mem_dec b x) as [H|H]; auto. exfalso.
      assert (val_bool (val_sub a b) = true); [|congruence]. apply val_bool_ok; auto. exists x. apply C; auto.
    - intros H. destruct (val_bool (val_sub a b)) eqn:E; auto. exfalso.
      apply val_bool_ok in E as [x Hx]; auto. apply C in Hx. destruct Hx. auto. }
  destruct a as [l|c l], b as [m|c' m]; cbn [kind_ok] in K; try contradiction; auto.
  simpl. destruct (contained_in_ok l m W1 W2) as (b & E & Hb). rewrite E. auto.
Qed.

Lemma val_rep_ok a : val_wf a -> (exists x, val_mem x a) -> val_mem (val_rep a) a.
Proof.
  destruct a as [l|[|] l]; cbn [val_wf val_mem val_rep]; intros W [x Hx].
  - destruct l as [|i l]; [apply mem_nil in Hx; tauto|]. simpl. apply mem_cons. left.
    apply canonical_cons_from in W. destruct W. lia.
  - apply fresh_not_mem.
  - destruct l as [|i l]; [apply mem_nil in Hx; tauto|]. simpl. apply mem_cons. left.
    apply canonical_cons_from in W. destruct W. lia.
Qed.

Lemma kind_trans a b c : kind_ok a c -> kind_ok b c -> kind_ok a b.
Proof. destruct a, b, c; simpl; tauto. Qed.
Lemma kind_trans' a b c : kind_ok a b -> kind_ok b c -> kind_ok a c.
Proof. destruct a, b, c; simpl; tauto. Qed.
Lemma kind_refl a : kind_ok a a.
Proof. destruct a; simpl; auto. Qed.

Theorem val_laws : forall dom, doms_ok dom -> vlaws (val_ops dom) val_mem (val_valid dom).
Proof.
  intros dom D.
  assert (Wd : forall d, val_wf (dom d)).
  { intros d. specialize (D d). destruct (dom d); simpl in *; [tauto|]. destruct D as [-> ->]. simpl. auto. }
  assert (Nd : forall d, exists x, val_mem x (dom d)).
  { intros d. specialize (D d). destruct (dom d) as [l|c l]; simpl in *.
    - apply iset_bool_ok; try tauto. destruct l; simpl; tauto.
    - destruct D as [-> ->]. exists 0. rewrite mem_nil. tauto. }
  assert (Vd : forall d, val_valid dom d (dom d)).
  { intros d. split; auto. split; auto. apply kind_refl. }
  assert (K : forall d a b, val_valid dom d a -> val_valid dom d b -> kind_ok a b).
  { intros d a b [_ [Ha _]] [_ [Hb _]]. eapply kind_trans; eauto. }
  constructor; cbn [vdom val_ops vand vor vsub vbool veqb vcont vin vrep vwhole]; auto.
  - intros d v x Hv. apply Hv.
  - intros d a b Ha Hb. destruct (val_and_ok a b (proj1 Ha) (proj1 Hb) (K _ _ _ Ha Hb)) as [A [B C]].
    split; auto. split; [eapply kind_trans'; eauto; apply Ha|]. intros x Hx. apply C in Hx. apply Ha. tauto.
  - intros d a b Ha Hb. destruct (val_or_ok a b (proj1 Ha) (proj1 Hb) (K _ _ _ Ha Hb)) as [A [B C]].
    split; auto. split; [eapply kind_trans'; eauto; apply Ha|]. intros x Hx. apply C in Hx as [Hx|Hx].
    + apply Ha; auto.
    + apply Hb; auto.
  - intros d a b Ha Hb. destruct (val_sub_ok a b (proj1 Ha) (proj1 Hb) (K _ _ _ Ha Hb)) as [A [B C]].
    split; auto. split; [eapply kind_trans'; eauto; apply Ha|]. intros x Hx. apply C in Hx. apply Ha. tauto.
  - intros d a b x Ha Hb. apply (val_and_ok a b (proj1 Ha) (proj1 Hb) (K _ _ _ Ha Hb)).
  - intros d a b x Ha Hb. apply (val_or_ok a b (proj1 Ha) (proj1 Hb) (K _ _ _ Ha Hb)).
  - intros d a b x Ha Hb. apply (val_sub_ok a b (proj1 Ha) (proj1 Hb) (K _ _ _ Ha Hb)).
  - intros d v Hv. apply val_bool_ok. apply Hv.
  - intros d a b Ha Hb. apply val_eqb_ok; try apply Ha; try apply Hb. eapply K; eauto.
  - intros d a b Ha Hb. apply val_cont_ok; try apply Ha; try apply Hb. eapply K; eauto.
  - intros d v x [W _]. destruct v as [l|[|] l]; simpl in *; rewrite ?contains_obool; auto; try tauto.
    rewrite negb_true_iff. rewrite <- contains_obool by auto. destruct (obool _); intuition congruence.
  - intros d v Hv. apply val_rep_ok. apply Hv.
  - intros d v Hv. rewrite val_eqb_ok; auto; try apply Hv.
    split; [intros H x; apply H|]. intros H x. split; auto. apply Hv.
Qed.
