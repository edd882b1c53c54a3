(** * Facts about the hyper-cube model: specification, invariants and proofs. *)
From Coq Require Import List Bool Arith Lia.
Import ListNotations.
From Verif Require Import HyperModel.

(** ** Laws of the layer values
    [vmem x v]: point [x] belongs to value [v]; [valid d v]: [v] is a value of dimension [d]
    satisfying its own class invariant. *)
Record vlaws {V P} (O : vops V P) (vmem : P -> V -> Prop) (valid : dim -> V -> Prop) : Prop := VLaws {
  L_dom : forall d, valid d (vdom O d);
  L_dom_ne : forall d, exists x, vmem x (vdom O d);
  L_sub_dom : forall d v x, valid d v -> vmem x v -> vmem x (vdom O d);
  L_and_valid : forall d a b, valid d a -> valid d b -> valid d (vand O a b);
  L_or_valid : forall d a b, valid d a -> valid d b -> valid d (vor O a b);
  L_sub_valid : forall d a b, valid d a -> valid d b -> valid d (vsub O a b);
  L_and : forall d a b x, valid d a -> valid d b -> (vmem x (vand O a b) <-> vmem x a /\ vmem x b);
  L_or : forall d a b x, valid d a -> valid d b -> (vmem x (vor O a b) <-> vmem x a \/ vmem x b);
  L_sub : forall d a b x, valid d a -> valid d b -> (vmem x (vsub O a b) <-> vmem x a /\ ~ vmem x b);
  L_bool : forall d v, valid d v -> (vbool O v = true <-> exists x, vmem x v);
  L_eqb : forall d a b, valid d a -> valid d b -> (veqb O a b = true <-> forall x, vmem x a <-> vmem x b);
  L_cont : forall d a b, valid d a -> valid d b -> (vcont O a b = true <-> forall x, vmem x a -> vmem x b);
  L_in : forall d v x, valid d v -> (vin O x v = true <-> vmem x v);
  L_rep : forall d v, valid d v -> (exists x, vmem x v) -> vmem (vrep O v) v;
  L_whole : forall d v, valid d v -> (vwhole O d v = true <-> forall x, vmem x (vdom O d) -> vmem x v)
}.

(** Ordered sub-lists. *)
Inductive subseq {A} : list A -> list A -> Prop :=
| sub_nil : forall l, subseq [] l
| sub_keep : forall x a l, subseq a l -> subseq (x :: a) (x :: l)
| sub_skip : forall x a l, subseq a l -> subseq a (x :: l).

Lemma subseq_refl {A} (l : list A) : subseq l l.
Proof. induction l; constructor; auto. Qed.

Lemma subseq_in {A} (a l : list A) : subseq a l -> forall x, In x a -> In x l.
Proof. induction 1; simpl; intros; intuition. Qed.

Lemma subseq_nodup {A} (a l : list A) : subseq a l -> NoDup l -> NoDup a.
Proof.
  induction 1; intros N; [constructor | |]; inversion N; subst; auto.
  constructor; auto. intro Hx. apply H2. eapply subseq_in; eauto.
Qed.

Lemma subseq_filter {A} (f : A -> bool) l : subseq (filter f l) l.
Proof. induction l; simpl; [constructor|]. destruct (f a); constructor; auto. Qed.

Lemma subseq_trans {A} (a b c : list A) : subseq a b -> subseq b c -> subseq a c.
Proof.
  intros H1 H2. revert a H1. induction H2; intros a0 H1.
  - inversion H1; subst; constructor.
  - inversion H1; subst; constructor; auto.
  - constructor; auto.
Qed.

Lemma subseq_tail {A} (x : A) a l : subseq (x :: a) l -> subseq a l.
Proof.
  intro H. remember (x :: a) as b eqn:E. revert x a E.
  induction H; intros x0 a0 E; try discriminate.
  - injection E as -> ->. apply sub_skip; auto.
  - subst. apply sub_skip. eauto.
Qed.

Lemma mem_dim_In d l : mem_dim d l = true <-> In d l.
Proof.
  unfold mem_dim. rewrite existsb_exists. split.
  - intros [x [H1 H2]]. apply Nat.eqb_eq in H2. subst; auto.
  - intros H. exists d. split; auto. apply Nat.eqb_refl.
Qed.
Lemma mem_dim_false d l : mem_dim d l = false <-> ~ In d l.
Proof. rewrite <- mem_dim_In. destruct (mem_dim d l); split; congruence. Qed.

Lemma subset_dims_spec a b : subset_dims a b = true <-> (forall d, In d a -> In d b).
Proof.
  unfold subset_dims. rewrite forallb_forall. split; intros H d Hd.
  - apply mem_dim_In; auto.
  - apply mem_dim_In; auto.
Qed.

Lemma dims_eqb_eq a b : dims_eqb a b = true <-> a = b.
Proof.
  revert b; induction a; destruct b; simpl; split; intros H; try discriminate; auto.
  - apply andb_true_iff in H as [H1 H2]. apply Nat.eqb_eq in H1. apply IHa in H2. congruence.
  - injection H as -> ->. rewrite Nat.eqb_refl. simpl. apply IHa. auto.
Qed.
Lemma dims_eqb_refl a : dims_eqb a a = true.
Proof. apply dims_eqb_eq; auto. Qed.

(** Two ordered sub-lists of a duplicate-free list, one included in the other. *)
Lemma subseq_incl {A} (all a b : list A) :
  NoDup all -> subseq a all -> subseq b all -> (forall d, In d a -> In d b) -> subseq a b.
Proof.
  intros N Ha. revert b. induction Ha; intros b Hb I.
  - constructor.
  - inversion N; subst. inversion Hb; subst.
    + exfalso. apply (I x). simpl; auto.
    + apply sub_keep. apply IHHa; auto. intros d Hd.
      destruct (I d) as [E|E]; simpl; auto. subst. exfalso. apply H1.
      eapply subseq_in; [apply Ha|]; auto.
    + exfalso. apply H1. eapply subseq_in; [apply H3|]. apply I; simpl; auto.
  - inversion N; subst. inversion Hb; subst.
    + destruct a; [constructor|]. exfalso. apply (I a). simpl; auto.
    + apply sub_skip. apply IHHa; auto. intros d Hd.
      destruct (I d Hd) as [E|E]; auto. subst. exfalso. apply H1.
      eapply subseq_in; [apply Ha|]; auto.
    + apply IHHa; auto.
Qed.

Lemma subseq_antisym {A} (all a b : list A) :
  NoDup all -> subseq a all -> subseq b all -> (forall d, In d a <-> In d b) -> a = b.
Proof.
  intros N Ha. revert b. induction Ha; intros b Hb I.
  - destruct b; auto. exfalso. apply (I a). simpl; auto.
  - inversion N; subst. inversion Hb; subst.
    + exfalso. apply (I x). simpl; auto.
    + f_equal. apply IHHa; auto. intros d. split; intros Hd.
      * destruct (proj1 (I d)) as [E|E]; simpl; auto. subst. exfalso. apply H1.
        eapply subseq_in; [apply Ha|]; auto.
      * destruct (proj2 (I d)) as [E|E]; simpl; auto. subst. exfalso. apply H1.
        eapply subseq_in; [apply H3|]; auto.
    + exfalso. apply H1. eapply subseq_in; [apply H3|]. apply I; simpl; auto.
  - inversion N; subst. inversion Hb; subst.
    + destruct a; auto. exfalso. apply (I a). simpl; auto.
    + exfalso. apply H1. eapply subseq_in; [apply Ha|]. apply I. simpl; auto.
    + apply IHHa; auto.
Qed.

Lemma by_order_subseq all s : subseq (by_order all s) all.
Proof. apply subseq_filter. Qed.
Lemma by_order_in all s d : In d (by_order all s) <-> In d all /\ In d s.
Proof. unfold by_order. rewrite filter_In, mem_dim_In. tauto. Qed.

Lemma FOP_map {A B} (R : A -> A -> Prop) (Q : B -> B -> Prop) (f : A -> B) l :
  (forall a b, In a l -> In b l -> R a b -> Q (f a) (f b)) ->
  ForallOrdPairs R l -> ForallOrdPairs Q (map f l).
Proof.
  intros H F. induction F; simpl; constructor.
  - apply Forall_forall. intros y Hy. apply in_map_iff in Hy as [z [<- Hz]].
    apply H; simpl; auto. rewrite Forall_forall in H0. auto.
  - apply IHF. intros; apply H; simpl; auto.
Qed.

Lemma FOP_impl {A} (R Q : A -> A -> Prop) l :
  (forall a b, In a l -> In b l -> R a b -> Q a b) -> ForallOrdPairs R l -> ForallOrdPairs Q l.
Proof.
  intros H F. rewrite <- (map_id l). eapply FOP_map; eauto.
Qed.

Lemma FOP_app {A} (R : A -> A -> Prop) l1 l2 :
  ForallOrdPairs R l1 -> ForallOrdPairs R l2 ->
  (forall a b, In a l1 -> In b l2 -> R a b) -> ForallOrdPairs R (l1 ++ l2).
Proof.
  intros F1 F2 H. induction F1; simpl; auto.
  constructor.
  - apply Forall_app. split; auto. apply Forall_forall. intros; apply H; simpl; auto.
  - apply IHF1. intros; apply H; simpl; auto.
Qed.

Lemma FOP_app_inv {A} (R : A -> A -> Prop) l1 l2 :
  ForallOrdPairs R (l1 ++ l2) ->
  ForallOrdPairs R l1 /\ ForallOrdPairs R l2 /\ (forall a b, In a l1 -> In b l2 -> R a b).
Proof.
  induction l1; simpl; intros F.
  - repeat split; auto; [constructor | intros; contradiction].
  - inversion F; subst. apply Forall_app in H1 as [H1 H1'].
    destruct (IHl1 H2) as [A1 [A2 A3]]. repeat split; auto.
    + constructor; auto.
    + intros a0 b [->|H] Hb; auto. rewrite Forall_forall in H1'. auto.
Qed.

Section Facts.
Context {V P : Type} (O : vops V P) (vmem : P -> V -> Prop) (valid : dim -> V -> Prop)
        (L : vlaws O vmem valid).
Notation hc := (hc V).
Notation entry := (V * hc)%type.

(** ** Specification: the set of points of an object. *)
Fixpoint tmem (ds : list dim) (p : dim -> P) (h : hc) {struct ds} : Prop :=
  match ds with
  | [] => True
  | d :: ds' =>
    match h with
    | Node _ _ ls => exists v s, In (v, s) ls /\ vmem (p d) v /\ tmem ds' p s
    | _ => False
    end
  end.
Definition denot (h : hc) (p : dim -> P) : Prop := tmem (act_of h) p h.

Definition indom (p : dim -> P) : Prop := forall d, vmem (p d) (vdom O d).

Definition same (ds : list dim) (s s' : hc) : Prop := forall p, indom p -> (tmem ds p s <-> tmem ds p s').
Definition full (ds : list dim) (s : hc) : Prop := forall p, indom p -> tmem ds p s.

(** ** Invariants
    [st = true]: strict invariant, all sub-objects are plain and pairwise different;
    [st = false]: weak invariant, enough for membership and containment. *)
Definition rel (st : bool) (ds : list dim) (s s' : hc) : Prop :=
  if st then same ds s s' else full ds s /\ full ds s'.
Definition tagok (st : bool) (ds : list dim) (s : hc) : Prop :=
  if st then cls_of s = Plain else (cls_of s = Conn -> ~ full ds s).

Definition keyok (d : dim) (ls : list entry) : Prop :=
  Forall (fun p => valid d (fst p) /\ exists x, vmem x (fst p)) ls.
Definition disj (p q : entry) : Prop := forall x, vmem x (fst p) -> vmem x (fst q) -> False.
Definition pdisj (ls : list entry) : Prop := ForallOrdPairs disj ls.
Definition lok d ls := keyok d ls /\ pdisj ls.

Fixpoint gc (st : bool) (ds : list dim) (h : hc) {struct ds} : Prop :=
  match ds with
  | [] => h = Leaf
  | d :: ds' =>
    match h with
    | Node c a ls =>
      a = ds /\ ls <> [] /\ lok d ls /\
      Forall (fun p => gc st ds' (snd p) /\ tagok st ds' (snd p)) ls /\
      ForallOrdPairs (fun p q => ~ rel st ds' (snd p) (snd q)) ls
    | _ => False
    end
  end.

Lemma disj_sym p q : disj p q -> disj q p.
Proof. unfold disj; intros H x; intros; eapply H; eauto. Qed.

Lemma pdisj_unique ls v s v' s' x :
  pdisj ls -> In (v, s) ls -> In (v', s') ls -> vmem x v -> vmem x v' -> (v, s) = (v', s').
Proof.
  intros D H1 H2 M1 M2.
  destruct (ForallOrdPairs_In D _ _ H1 H2) as [E|[E|E]]; auto.
  - exfalso. apply (E x); auto.
  - exfalso. apply (E x); auto.
Qed.

Lemma keyok_in d ls v s : keyok d ls -> In (v, s) ls -> valid d v /\ exists x, vmem x v.
Proof. intros K H. unfold keyok in K. rewrite Forall_forall in K. apply (K _ H). Qed.

Lemma vbool_false d v : valid d v -> vbool O v = false -> forall x, ~ vmem x v.
Proof.
  intros Hv Hb x Hx. assert (vbool O v = true) by (apply (L_bool _ _ _ L d); eauto). congruence.
Qed.
Lemma vbool_true d v : valid d v -> vbool O v = true -> exists x, vmem x v.
Proof. intros Hv Hb. apply (L_bool _ _ _ L d); auto. Qed.

Lemma vmem_dec d v x : valid d v -> vmem x v \/ ~ vmem x v.
Proof.
  intros Hv. destruct (vin O x v) eqn:E.
  - left. apply (L_in _ _ _ L d); auto.
  - right. intro H. apply (L_in _ _ _ L d) in H; auto. congruence.
Qed.

Lemma veqb_true d a b : valid d a -> valid d b -> veqb O a b = true -> forall x, vmem x a <-> vmem x b.
Proof. intros Ha Hb E. apply (L_eqb _ _ _ L d a b Ha Hb). auto. Qed.

(** ** Dictionaries with disjoint keys *)
Lemma dset_app d ls k x : keyok d ls -> valid d k -> (exists y, vmem y k) ->
  Forall (fun p => disj p (k, x)) ls -> dset O ls k x = ls ++ [(k, x)].
Proof.
  intros K Hk [y Hy] F. induction ls as [|[k' x'] t IH]; simpl; auto.
  inversion K as [|? ? [K1 K2] K3]; subst. inversion F as [|? ? F1 F2]; subst.
  destruct (veqb O k' k) eqn:E.
  - exfalso. apply (F1 y); simpl; auto. apply (veqb_true d k' k); auto.
  - rewrite IH; auto.
Qed.

Lemma dict_of_acc d ls acc : keyok d (acc ++ ls) -> pdisj (acc ++ ls) ->
  fold_left (fun dd kx => dset O dd (fst kx) (snd kx)) ls acc = acc ++ ls.
Proof.
  revert acc. induction ls as [|[k x] t IH]; intros acc K D; simpl.
  - rewrite app_nil_r; auto.
  - assert (E : dset O acc k x = acc ++ [(k, x)]).
    { unfold keyok in K. apply Forall_app in K as [K1 K2]. inversion K2 as [|? ? [K3 K4] K5]; subst.
      apply (dset_app d); auto.
      apply FOP_app_inv in D as [_ [_ D]].
      apply Forall_forall. intros p Hp. apply D; simpl; auto. }
    rewrite E. rewrite (IH (acc ++ [(k, x)])); rewrite <- ?app_assoc; auto.
Qed.

Lemma dict_of_id d ls : lok d ls -> dict_of O ls = ls.
Proof. intros [K D]. unfold dict_of. apply (dict_of_acc d ls []); auto. Qed.

(** ** Points *)
Definition upd (p : dim -> P) (d : dim) (x : P) : dim -> P := fun e => if Nat.eqb e d then x else p e.
Lemma upd_same p d x : upd p d x d = x.
Proof. unfold upd. rewrite Nat.eqb_refl. auto. Qed.
Lemma upd_other p d x e : e <> d -> upd p d x e = p e.
Proof. unfold upd. intro H. apply Nat.eqb_neq in H. rewrite H. auto. Qed.
Lemma upd_indom p d x : indom p -> vmem x (vdom O d) -> indom (upd p d x).
Proof. intros H Hx e. unfold upd. destruct (Nat.eqb_spec e d); subst; auto. Qed.

Lemma tmem_ext ds p q h : (forall d, In d ds -> p d = q d) -> tmem ds p h <-> tmem ds q h.
Proof.
  revert h. induction ds as [|d ds IH]; intros h H; simpl; [tauto|].
  destruct h; try tauto.
  split; intros [v [s [H1 [H2 H3]]]]; exists v, s; repeat split; auto.
  - rewrite <- H; simpl; auto.
  - rewrite <- IH; auto. intros; apply H; simpl; auto.
  - rewrite H; simpl; auto.
  - rewrite IH; eauto. intros; apply H; simpl; auto.
Qed.

Lemma tmem_upd ds p d x h : ~ In d ds -> tmem ds (upd p d x) h <-> tmem ds p h.
Proof. intros H. apply tmem_ext. intros e He. apply upd_other. intro; subst; auto. Qed.

Lemma indom_ex : exists p, indom p.
Proof.
  exists (fun d => vrep O (vdom O d)). intro d. apply (L_rep _ _ _ L d).
  - apply (L_dom _ _ _ L).
  - apply (L_dom_ne _ _ _ L).
Qed.

(** Section of a node at a point. *)
Lemma node_section d ds c a ls p v s :
  pdisj ls -> In (v, s) ls -> vmem (p d) v ->
  (tmem (d :: ds) p (Node c a ls) <-> tmem ds p s).
Proof.
  intros D H M. simpl. split.
  - intros [v' [s' [H1 [H2 H3]]]].
    assert (E : (v, s) = (v', s')) by (eapply pdisj_unique; eauto).
    injection E as <- <-. auto.
  - intros T. exists v, s. auto.
Qed.

Lemma gc_inv st d ds h : gc st (d :: ds) h ->
  exists c ls, h = Node c (d :: ds) ls /\ ls <> [] /\ lok d ls /\
    Forall (fun p => gc st ds (snd p) /\ tagok st ds (snd p)) ls /\
    ForallOrdPairs (fun p q => ~ rel st ds (snd p) (snd q)) ls.
Proof.
  intros H. simpl in H. destruct h as [| |c a ls]; try contradiction.
  destruct H as [-> H]. exists c, ls. auto.
Qed.

Lemma gc_retag st ds c c' a ls : gc st ds (Node c a ls) -> gc st ds (Node c' a ls).
Proof. destruct ds; simpl; auto. intros; discriminate. Qed.

Lemma tmem_retag ds p c c' a a' ls : tmem ds p (Node c a ls) <-> tmem ds p (Node c' a' ls).
Proof. destruct ds; simpl; tauto. Qed.

(** Every well-formed tree has a point. *)
Lemma gc_nonempty st ds h : NoDup ds -> gc st ds h -> exists p, indom p /\ tmem ds p h.
Proof.
  revert h. induction ds as [|d ds IH]; intros h N G.
  - destruct indom_ex as [p Hp]. exists p. simpl; auto.
  - inversion N; subst. destruct (gc_inv _ _ _ _ G) as [c [ls [-> [NE [[K D] [F _]]]]]].
    destruct ls as [|[v s] t]; [congruence|].
    inversion F as [|? ? [G1 _] _]; subst. simpl in G1.
    destruct (IH s H2 G1) as [p [Hp Tp]].
    inversion K as [|? ? [K1 [x Hx]] _]; subst. simpl in *.
    exists (upd p d x). split.
    + apply upd_indom; auto. eapply (L_sub_dom _ _ _ L); eauto.
    + exists v, s. repeat split; auto. rewrite upd_same; auto. apply tmem_upd; auto.
Qed.

(** Membership is decidable on well-formed trees. *)
Lemma gc_dec st ds h p : gc st ds h -> tmem ds p h \/ ~ tmem ds p h.
Proof.
  revert h. induction ds as [|d ds IH]; intros h G; [left; simpl; auto|].
  destruct (gc_inv _ _ _ _ G) as [c [ls [-> [_ [[K D] [F _]]]]]]. simpl. clear G D.
  induction ls as [|[v s] t IHl].
  - right. intros [v [s [[] _]]].
  - inversion K as [|? ? [K1 K2] K3]; subst. inversion F as [|? ? [F1 F2] F3]; subst. simpl in *.
    destruct (IHl K3 F3) as [[v' [s' [H1 [H2 H3]]]]|N].
    + left. exists v', s'. auto.
    + destruct (vmem_dec d v (p d) K1) as [M|M].
      * destruct (IH s F1) as [T|T].
        -- left. exists v, s. auto.
        -- right. intros [v' [s' [[E|E] [H2 H3]]]]; [injection E as <- <-; auto|]. apply N. eauto.
      * right. intros [v' [s' [[E|E] [H2 H3]]]]; [injection E as <- <-; auto|]. apply N. eauto.
Qed.

(** ** Equality: soundness *)
Definition keq (p q : entry) : Prop := forall x, vmem x (fst p) <-> vmem x (fst q).

Lemma match_surj d (l1 l2 : list entry) :
  lok d l1 -> length l1 = length l2 -> (forall e, In e l1 -> exists e2, In e2 l2 /\ keq e e2) ->
  forall e2, In e2 l2 -> exists e, In e l1 /\ keq e e2.
Proof.
  revert l2. induction l1 as [|e l1 IH]; intros l2 [K D] Hl M e2 H2.
  - destruct l2; [contradiction|discriminate].
  - destruct (M e) as [f [Hf Ef]]; [simpl; auto|].
    apply in_split in Hf as [a [b ->]].
    apply in_app_iff in H2. simpl in H2.
    destruct H2 as [H2|[H2|H2]].
    2:{ subst. exists e. simpl; auto. }
    all: inversion K as [|? ? K1 K3]; subst; inversion D as [|? ? D1 D3]; subst;
      destruct (IH (a ++ b)) with (e2 := e2) as [g [Hg Eg]];
      [ split; auto
      | rewrite app_length in *; simpl in *; lia
      | intros e' He'; destruct (M e') as [f' [Hf' Ef']]; [simpl; auto|];
        apply in_app_iff in Hf'; simpl in Hf'; destruct Hf' as [Hf'|[Hf'|Hf']];
        [ exists f'; rewrite in_app_iff; auto
        | exfalso; subst f';
          destruct K1 as [_ [x Hx]]; rewrite Forall_forall in D1;
          apply (D1 e' He' x); auto; apply Ef'; apply Ef; auto
        | exists f'; rewrite in_app_iff; auto ]
      | rewrite in_app_iff; auto
      | exists g; simpl; auto ].
Qed.

Lemma match_length d (l1 l2 : list entry) :
  lok d l1 -> (forall e, In e l1 -> exists e2, In e2 l2 /\ keq e e2) -> length l1 <= length l2.
Proof.
  revert l2. induction l1 as [|e l1 IH]; intros l2 [K D] M; simpl; [lia|].
  destruct (M e) as [f [Hf Ef]]; [simpl; auto|].
  apply in_split in Hf as [a [b ->]].
  inversion K as [|? ? K1 K3]; subst; inversion D as [|? ? D1 D3]; subst.
  assert (length l1 <= length (a ++ b)).
  { apply IH; [split; auto|]. intros e' He'. destruct (M e') as [f' [Hf' Ef']]; [simpl; auto|].
    apply in_app_iff in Hf'; simpl in Hf'; destruct Hf' as [Hf'|[Hf'|Hf']].
    - exists f'; rewrite in_app_iff; auto.
    - exfalso; subst f'. destruct K1 as [_ [x Hx]]; rewrite Forall_forall in D1.
      apply (D1 e' He' x); auto. apply Ef'; apply Ef; auto.
    - exists f'; rewrite in_app_iff; auto. }
  rewrite app_length in *. simpl. lia.
Qed.

Lemma dget_in d ls k s : keyok d ls -> valid d k -> dget O ls k = Some s ->
  exists k', In (k', s) ls /\ keq (k', s) (k, s).
Proof.
  intros K Hk. induction ls as [|[k' s'] t IH]; simpl; [discriminate|].
  inversion K as [|? ? [K1 K2] K3]; subst. destruct (veqb O k' k) eqn:E.
  - intros H; injection H as <-. exists k'. split; auto.
    intro x. apply (veqb_true d k' k); auto.
  - intros H. destruct (IH K3 H) as [k2 [H1 H2]]. exists k2. auto.
Qed.

Lemma dget_complete d ls k k' s' : lok d ls -> valid d k -> In (k', s') ls ->
  (forall x, vmem x k' <-> vmem x k) -> dget O ls k = Some s'.
Proof.
  intros [K D] Hk Hin E. induction ls as [|[k2 s2] t IH]; simpl; [contradiction|].
  inversion K as [|? ? [K1 K2] K3]; subst. inversion D as [|? ? D1 D2]; subst. simpl in *.
  destruct Hin as [Hin|Hin].
  - injection Hin as -> ->. assert (Eb : veqb O k' k = true) by (apply (L_eqb _ _ _ L d); auto).
    rewrite Eb. auto.
  - destruct (veqb O k2 k) eqn:Eb.
    + exfalso. pose proof (veqb_true d k2 k K1 Hk Eb) as HH.
      destruct K2 as [x Hx]. rewrite Forall_forall in D1. apply (D1 _ Hin x); simpl; auto.
      apply E. apply HH. auto.
    + auto.
Qed.

Lemma hbool_node c d ds (ls : list entry) : ls <> [] -> hbool (Node c (d :: ds) ls) = true.
Proof. destruct ls; simpl; congruence. Qed.

Lemma eqb_node c1 c2 d ds (l1 l2 : list entry) : l1 <> [] ->
  hc_eqb O (Node c1 (d :: ds) l1) (Node c2 (d :: ds) l2) =
  cls_eqb c1 c2 && Nat.eqb (length l1) (length l2) &&
  forallb (fun p => match p with (v, s) =>
                      match dget O l2 v with Some s' => hc_eqb O s s' | None => false end
                    end) l1.
Proof.
  intros N. destruct l1 as [|e1 t1]; [congruence|]. destruct e1 as [v1 s1].
  cbn [hc_eqb]. destruct (cls_eqb c1 c2); [|reflexivity].
  rewrite dims_eqb_refl. reflexivity.
Qed.

Lemma eqb_sound st ds h1 h2 p : gc st ds h1 -> gc st ds h2 -> hc_eqb O h1 h2 = true ->
  (tmem ds p h1 <-> tmem ds p h2).
Proof.
  revert h1 h2. induction ds as [|d ds IH]; intros h1 h2 G1 G2 E; [simpl; tauto|].
  destruct (gc_inv _ _ _ _ G1) as [c1 [l1 [-> [N1 [O1 [F1 _]]]]]].
  destruct (gc_inv _ _ _ _ G2) as [c2 [l2 [-> [N2 [O2 [F2 _]]]]]].
  rewrite eqb_node in E by auto.
  apply andb_true_iff in E as [E E3]. apply andb_true_iff in E as [_ E2].
  apply Nat.eqb_eq in E2. rewrite forallb_forall in E3.
  assert (M : forall v s, In (v, s) l1 -> exists v' s', In (v', s') l2 /\
             (forall x, vmem x v <-> vmem x v') /\ (tmem ds p s <-> tmem ds p s')).
  { intros v s Hin. specialize (E3 _ Hin). simpl in E3.
    destruct (dget O l2 v) as [s'|] eqn:Eg; [|discriminate].
    destruct O1 as [K1 _]. destruct O2 as [K2 _].
    destruct (keyok_in _ _ _ _ K1 Hin) as [Vv _].
    destruct (dget_in d _ _ _ K2 Vv Eg) as [v' [Hv' Ek]].
    exists v', s'. split; auto. split.
    - intro x. symmetry. apply (Ek x).
    - rewrite Forall_forall in F1, F2. apply IH; auto.
      + apply (F1 _ Hin).
      + apply (F2 _ Hv'). }
  simpl. split.
  - intros [v [s [Hin [H2 H3]]]]. destruct (M v s Hin) as [v' [s' [A [B C]]]].
    exists v', s'. repeat split; auto. apply B; auto. apply C; auto.
  - intros [v' [s' [Hin [H2 H3]]]].
    destruct (match_surj d l1 l2 O1 E2) with (e2 := (v', s')) as [[v s] [Hin1 Ek]]; auto.
    { intros [v s] Hi. destruct (M v s Hi) as [v2 [s2 [A [B C]]]]. exists (v2, s2). split; auto. }
    destruct (M v s Hin1) as [v2 [s2 [A [B C]]]].
    assert (Eq : (v2, s2) = (v', s')).
    { destruct O2 as [K2 D2]. eapply (pdisj_unique l2 v2 s2 v' s' (p d)); eauto.
      apply B. apply Ek. auto. }
    injection Eq as -> ->.
    exists v, s. repeat split; auto. apply B; auto. apply C; auto.
Qed.

(** ** Equality: completeness for strict trees, and for full trees *)
Lemma gc_sub st d ds c a ls v s : gc st (d :: ds) (Node c a ls) -> In (v, s) ls ->
  gc st ds s /\ tagok st ds s /\ valid d v /\ exists x, vmem x v.
Proof.
  intros G H. destruct (gc_inv _ _ _ _ G) as [c' [ls' [E [_ [[K _] [F _]]]]]].
  injection E as <- _ <-. rewrite Forall_forall in F. destruct (F _ H) as [F1 F2].
  destruct (keyok_in _ _ _ _ K H). auto.
Qed.

Lemma rel_unique st d ds c a ls v s v' s' : gc st (d :: ds) (Node c a ls) ->
  In (v, s) ls -> In (v', s') ls -> rel st ds s s' -> (v, s) = (v', s').
Proof.
  intros G H1 H2 R. destruct (gc_inv _ _ _ _ G) as [c' [ls' [E [_ [_ [_ F]]]]]].
  injection E as <- _ <-.
  destruct (ForallOrdPairs_In F _ _ H1 H2) as [E|[E|E]]; auto; exfalso; apply E; auto.
  simpl. unfold rel in *. destruct st; [intros p Hp; symmetry; auto|tauto].
Qed.

Lemma same_refl ds s : same ds s s.
Proof. intros p _; tauto. Qed.

(** [h'] covers the sections of [h]. *)
Lemma section_match d ds h h' c a ls c' a' ls' v s :
  NoDup (d :: ds) -> h = Node c a ls -> h' = Node c' a' ls' ->
  gc true (d :: ds) h -> gc true (d :: ds) h' -> same (d :: ds) h h' ->
  In (v, s) ls -> exists v' s', In (v', s') ls' /\ (forall x, vmem x v -> vmem x v') /\ same ds s s'.
Proof.
  intros N -> -> G G' S Hin. inversion N; subst.
  destruct (gc_sub _ _ _ _ _ _ _ _ G Hin) as [Gs [_ [Vv [x Hx]]]].
  destruct (gc_inv _ _ _ _ G) as [? [? [E [_ [[K D] _]]]]]. injection E as <- _ <-.
  destruct (gc_inv _ _ _ _ G') as [? [? [E [_ [[K' D'] _]]]]]. injection E as <- _ <-.
  destruct (gc_nonempty _ _ _ H2 Gs) as [q [Hq Tq]].
  assert (A : forall y, vmem y v -> exists v' s', In (v', s') ls' /\ vmem y v' /\ same ds s s').
  { intros y Hy.
    assert (Iy : vmem y (vdom O d)) by (eapply (L_sub_dom _ _ _ L); eauto).
    assert (T : tmem (d :: ds) (upd q d y) (Node c a ls)).
    { apply (node_section d ds c a ls (upd q d y) v s); auto. rewrite upd_same; auto.
      apply tmem_upd; auto. }
    apply S in T; [|apply upd_indom; auto].
    destruct T as [v' [s' [Hin' [M' T']]]]. rewrite upd_same in M'.
    exists v', s'. repeat split; auto; intros T.
    - assert (T2 : tmem (d :: ds) (upd p d y) (Node c a ls)).
      { apply (node_section d ds c a ls (upd p d y) v s); auto. rewrite upd_same; auto.
        apply tmem_upd; auto. }
      apply S in T2; [|apply upd_indom; auto].
      apply (node_section d ds c' a' ls' (upd p d y) v' s') in T2; auto.
      + apply tmem_upd in T2; auto.
      + rewrite upd_same; auto.
    - assert (T2 : tmem (d :: ds) (upd p d y) (Node c' a' ls')).
      { apply (node_section d ds c' a' ls' (upd p d y) v' s'); auto. rewrite upd_same; auto.
        apply tmem_upd; auto. }
      apply S in T2; [|apply upd_indom; auto].
      apply (node_section d ds c a ls (upd p d y) v s) in T2; auto.
      + apply tmem_upd in T2; auto.
      + rewrite upd_same; auto. }
  destruct (A x Hx) as [v' [s' [Hin' [M' S']]]].
  exists v', s'. repeat split; auto.
  - intros y Hy. destruct (A y Hy) as [v2 [s2 [Hin2 [M2 S2]]]].
    assert (E : (v', s') = (v2, s2)).
    { eapply (rel_unique true); [exact G' | | |]; auto. simpl. intros p Hp.
      rewrite <- (S' p Hp). auto. }
    injection E as -> ->. auto.
  - apply S'; auto.
  - apply S'; auto.
Qed.

Lemma eqb_complete_strict ds h1 h2 : NoDup ds -> gc true ds h1 -> gc true ds h2 ->
  cls_of h1 = cls_of h2 -> same ds h1 h2 -> hc_eqb O h1 h2 = true.
Proof.
  revert h1 h2. induction ds as [|d ds IH]; intros h1 h2 N G1 G2 Ec S.
  - simpl in G1, G2. subst. reflexivity.
  - inversion N; subst.
    destruct (gc_inv _ _ _ _ G1) as [c1 [l1 [E1 [N1 [O1 [F1 _]]]]]].
    destruct (gc_inv _ _ _ _ G2) as [c2 [l2 [E2 [N2 [O2 [F2 _]]]]]].
    assert (M1 : forall v s, In (v, s) l1 -> exists v' s', In (v', s') l2 /\
             (forall x, vmem x v <-> vmem x v') /\ same ds s s').
    { intros v s Hin.
      destruct (section_match d ds h1 h2 c1 _ l1 c2 _ l2 v s N E1 E2 G1 G2 S Hin)
        as [v' [s' [Hin' [I' S']]]].
      exists v', s'. split; auto. split; auto. intro x; split; auto. intros Mx.
      assert (S2 : same (d :: ds) h2 h1) by (intros p Hp; symmetry; auto).
      destruct (section_match d ds h2 h1 c2 _ l2 c1 _ l1 v' s' N E2 E1 G2 G1 S2 Hin')
        as [v2 [s2 [Hin2 [I2 S2']]]].
      assert (E : (v, s) = (v2, s2)).
      { subst h1. eapply (rel_unique true); [exact G1| | |]; auto. simpl.
        intros p Hp. rewrite (S' p Hp). auto. }
      injection E as <- <-. auto. }
    assert (M2 : forall e, In e l2 -> exists e1, In e1 l1 /\ keq e e1).
    { intros [v' s'] Hin'.
      assert (S2 : same (d :: ds) h2 h1) by (intros p Hp; symmetry; auto).
      destruct (section_match d ds h2 h1 c2 _ l2 c1 _ l1 v' s' N E2 E1 G2 G1 S2 Hin')
        as [v [s [Hin [I I']]]].
      destruct (M1 v s Hin) as [v2 [s2 [Hin2 [A B]]]].
      exists (v, s). split; auto. intro x. simpl. split; auto. intros Mx.
      assert (E : (v', s') = (v2, s2)).
      { subst h2. eapply (rel_unique true); [exact G2| | |]; auto. simpl.
        intros p Hp. rewrite (I' p Hp). auto. }
      injection E as -> ->. apply A. auto. }
    assert (Len : length l1 = length l2).
    { apply Nat.le_antisymm.
      - apply (match_length d); auto. intros [v s] Hin. destruct (M1 v s Hin) as [v' [s' [A [B _]]]].
        exists (v', s'). split; auto.
      - apply (match_length d); auto. }
    subst h1 h2. rewrite eqb_node by auto. simpl in Ec. subst c2.
    replace (cls_eqb c1 c1) with true by (destruct c1; auto).
    rewrite Len, Nat.eqb_refl. cbv [andb].
    apply forallb_forall. intros [v s] Hin. destruct (M1 v s Hin) as [v' [s' [Hin' [B C]]]].
    destruct (gc_sub _ _ _ _ _ _ _ _ G1 Hin) as [Gs [Ts [Vv _]]].
    destruct (gc_sub _ _ _ _ _ _ _ _ G2 Hin') as [Gs' [Ts' [Vv' _]]].
    rewrite (dget_complete d l2 v v' s'); auto.
    + apply IH; auto. simpl in Ts, Ts'. congruence.
    + intros x. symmetry. auto.
Qed.

(** Full trees: every level has the single key "whole domain". *)
Lemma full_sub st d ds c a ls : NoDup (d :: ds) -> gc st (d :: ds) (Node c a ls) ->
  full (d :: ds) (Node c a ls) ->
  exists v s, ls = [(v, s)] /\ (forall x, vmem x (vdom O d) <-> vmem x v) /\ full ds s.
Proof.
  intros N G F. inversion N; subst.
  destruct (gc_inv _ _ _ _ G) as [? [? [E [NE [[K D] _]]]]]. injection E as <- _ <-.
  assert (A : forall v s, In (v, s) ls -> full ds s).
  { intros v s Hin p Hp. destruct (gc_sub _ _ _ _ _ _ _ _ G Hin) as [_ [_ [Vv [x Hx]]]].
    assert (T : tmem (d :: ds) (upd p d x) (Node c a ls)).
    { apply F. apply upd_indom; auto. eapply (L_sub_dom _ _ _ L); eauto. }
    apply (node_section d ds c a ls (upd p d x) v s) in T; auto.
    - apply tmem_upd in T; auto.
    - rewrite upd_same; auto. }
  destruct ls as [|[v s] [|[v2 s2] t]]; [congruence | |].
  - exists v, s. split; auto. split; [|eapply A; simpl; eauto].
    destruct (gc_sub _ _ _ _ _ _ _ _ G (or_introl eq_refl)) as [_ [_ [Vv _]]].
    intros x; split; intros Hx.
    + destruct indom_ex as [p Hp].
      assert (T : tmem (d :: ds) (upd p d x) (Node c a [(v, s)])) by (apply F; apply upd_indom; auto).
      destruct T as [v' [s' [[E|[]] [M _]]]]. injection E as <- <-. rewrite upd_same in M. auto.
    + eapply (L_sub_dom _ _ _ L); eauto.
  - exfalso.
    assert (F1 : full ds s) by (eapply A; simpl; eauto).
    assert (F2 : full ds s2) by (eapply A; simpl; eauto).
    assert (R : rel st ds s s2).
    { destruct st; simpl; [|auto]. intros p Hp. split; intros _; auto. }
    pose proof (rel_unique _ _ _ _ _ _ v s v2 s2 G (or_introl eq_refl) (or_intror (or_introl eq_refl)) R) as E.
    inversion D as [|? ? D1 D2]; subst. inversion D1 as [|? ? D3 D4]; subst.
    inversion K as [|? ? [_ [x Hx]] K3]; subst. simpl in *.
    apply (D3 x); simpl; auto. injection E as <- <-. auto.
Qed.

Lemma create_aux_full d ds : create_aux (full_cube O (d :: ds)) =
  Node Plain (d :: ds) [(vdom O d, match ds with [] => Leaf | _ => create_aux (full_cube O ds) end)].
Proof.
  unfold full_cube. destruct ds as [|d' ds]; simpl; auto.
  f_equal. rewrite map_map. simpl. rewrite map_id. auto.
Qed.

Lemma eqb_full_cube st ds h : NoDup ds -> ds <> [] -> gc st ds h -> tagok st ds h -> full ds h ->
  hc_eqb O (create_aux (full_cube O ds)) h = true.
Proof.
  revert h. induction ds as [|d ds IH]; intros h N NE G T F; [congruence|].
  destruct (gc_inv _ _ _ _ G) as [c [ls [-> [N1 [O1 _]]]]].
  assert (Ec : c = Plain).
  { destruct c; auto. exfalso. destruct st; simpl in T; [discriminate|]. apply T; auto. }
  destruct (full_sub _ _ _ _ _ _ N G F) as [v [s [-> [Ev Fs]]]]. subst c.
  rewrite create_aux_full. rewrite eqb_node by discriminate. cbn [cls_eqb length Nat.eqb andb forallb dget].
  destruct (gc_sub _ _ _ _ _ _ _ _ G (or_introl eq_refl)) as [Gs [Ts [Vv _]]].
  assert (Eb : veqb O v (vdom O d) = true).
  { apply (L_eqb _ _ _ L d); auto. apply (L_dom _ _ _ L). intros x. symmetry. apply Ev. }
  rewrite Eb. rewrite andb_true_r. inversion N; subst.
  destruct ds as [|d' ds'].
  - simpl in Gs. subst s. reflexivity.
  - apply IH; auto. discriminate.
Qed.

Lemma full_cube_gc st ds : NoDup ds -> ds <> [] ->
  gc st ds (create_aux (full_cube O ds)) /\ full ds (create_aux (full_cube O ds)).
Proof.
  induction ds as [|d ds IH]; intros N NE; [congruence|].
  inversion N; subst. rewrite create_aux_full.
  assert (S : gc st ds (match ds with [] => Leaf | _ => create_aux (full_cube O ds) end) /\
              full ds (match ds with [] => Leaf | _ => create_aux (full_cube O ds) end) /\
              cls_of (match ds with [] => Leaf | _ => create_aux (full_cube O ds) end) = Plain).
  { destruct ds as [|d' ds'].
    - repeat split; auto.
    - destruct IH; auto; [discriminate|]. repeat split; auto. rewrite create_aux_full. auto. }
  destruct S as [S1 [S2 S3]].
  split.
  - simpl. repeat split; auto.
    + discriminate.
    + constructor; [|constructor]. simpl. split. apply (L_dom _ _ _ L). apply (L_dom_ne _ _ _ L).
    + constructor; constructor.
    + constructor; [|constructor]. simpl. split; auto. destruct st; simpl; auto.
      intros E; rewrite S3 in E; discriminate.
    + constructor; constructor.
  - intros p Hp. simpl. eexists; eexists; split; [left; reflexivity|]. split; auto.
Qed.

Lemma eqb_complete st ds h1 h2 : NoDup ds -> gc st ds h1 -> gc st ds h2 ->
  tagok st ds h1 -> tagok st ds h2 -> rel st ds h1 h2 -> hc_eqb O h1 h2 = true.
Proof.
  intros N G1 G2 T1 T2 R. destruct st; simpl in *.
  - apply (eqb_complete_strict ds); auto. congruence.
  - destruct R as [F1 F2].
    revert h1 h2 G1 G2 T1 T2 F1 F2. induction ds as [|d ds IH]; intros.
    + simpl in *. subst. reflexivity.
    + destruct (gc_inv _ _ _ _ G1) as [c1 [l1 [-> [_ [O1 _]]]]].
      destruct (gc_inv _ _ _ _ G2) as [c2 [l2 [-> [_ [O2 _]]]]].
      destruct (full_sub _ _ _ _ _ _ N G1 F1) as [v1 [s1 [-> [Ev1 Fs1]]]].
      destruct (full_sub _ _ _ _ _ _ N G2 F2) as [v2 [s2 [-> [Ev2 Fs2]]]].
      destruct (gc_sub _ _ _ _ _ _ _ _ G1 (or_introl eq_refl)) as [Gs1 [Ts1 [Vv1 _]]].
      destruct (gc_sub _ _ _ _ _ _ _ _ G2 (or_introl eq_refl)) as [Gs2 [Ts2 [Vv2 _]]].
      assert (E1 : c1 = Plain) by (destruct c1; auto; exfalso; apply T1; auto).
      assert (E2 : c2 = Plain) by (destruct c2; auto; exfalso; apply T2; auto). subst c1 c2.
      inversion N; subst. rewrite eqb_node by discriminate. cbn [cls_eqb length Nat.eqb andb forallb dget].
      assert (Eb : veqb O v2 v1 = true).
      { apply (L_eqb _ _ _ L d); auto. intros x. rewrite <- Ev2, <- Ev1. tauto. }
      rewrite Eb. rewrite andb_true_r. apply IH; auto.
Qed.

Lemma eqb_sym_true st ds h1 h2 : NoDup ds -> gc st ds h1 -> gc st ds h2 ->
  tagok st ds h1 -> tagok st ds h2 -> rel st ds h2 h1 -> hc_eqb O h1 h2 = true.
Proof.
  intros. apply (eqb_complete st ds); auto. unfold rel in *. destruct st; [|tauto].
  intros p Hp. symmetry. auto.
Qed.
End Facts.
