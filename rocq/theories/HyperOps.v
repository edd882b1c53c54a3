(** * The operations of the hyper-cube model preserve the invariant and are exact. *)
From Coq Require Import List Bool Arith Lia.
Import ListNotations.
From Verif Require Import HyperModel HyperFacts.

Section OpsFacts.
Context {V P : Type} (O : vops V P) (vmem : P -> V -> Prop) (valid : dim -> V -> Prop)
        (L : vlaws O vmem valid).
Notation hc := (hc V).
Notation entry := (V * hc)%type.
Notation tmem := (tmem vmem).
Notation indom := (indom O vmem).
Notation same := (same O vmem).
Notation full := (full O vmem).
Notation rel := (rel O vmem).
Notation tagok := (tagok O vmem).
Notation keyok := (keyok vmem valid).
Notation disj := (disj vmem).
Notation pdisj := (pdisj vmem).
Notation lok := (lok vmem valid).
Notation gc := (gc O vmem valid).

Definition ok st ds (s : hc) : Prop := gc st ds s /\ tagok st ds s.
Definition nrel st ds (p q : entry) : Prop := ~ rel st ds (snd p) (snd q).
(** Points of a list of layers. *)
Definition lmem ds d (p : dim -> P) (ls : list entry) : Prop :=
  exists v s, In (v, s) ls /\ vmem (p d) v /\ tmem ds p s.

Lemma lmem_nil ds d p : lmem ds d p [] <-> False.
Proof. unfold lmem; simpl; split; [intros [v [s [[] _]]]|tauto]. Qed.
Lemma lmem_cons ds d p v s l : lmem ds d p ((v, s) :: l) <-> (vmem (p d) v /\ tmem ds p s) \/ lmem ds d p l.
Proof.
  unfold lmem; simpl; split.
  - intros [v' [s' [[E|H] R]]]; [injection E as <- <-; auto|right; eauto].
  - intros [[A B]|[v' [s' [H R]]]]; [exists v, s; auto|exists v', s'; auto].
Qed.
Lemma lmem_app ds d p l1 l2 : lmem ds d p (l1 ++ l2) <-> lmem ds d p l1 \/ lmem ds d p l2.
Proof.
  unfold lmem. split.
  - intros [v [s [H R]]]. apply in_app_iff in H as [H|H]; [left|right]; eauto.
  - intros [[v [s [H R]]]|[v [s [H R]]]]; exists v, s; rewrite in_app_iff; auto.
Qed.
Lemma lmem_flat_map {A} ds d p (f : A -> list entry) l :
  lmem ds d p (flat_map f l) <-> exists a, In a l /\ lmem ds d p (f a).
Proof.
  unfold lmem. split.
  - intros [v [s [H R]]]. apply in_flat_map in H as [a [Ha H]]. exists a. split; auto. exists v, s; auto.
  - intros [a [Ha [v [s [H R]]]]]. exists v, s. rewrite in_flat_map. split; eauto.
Qed.

(** ** Merging of layers *)
Definition covers (ls : list entry) x := exists e, In e ls /\ vmem x (fst e).

Lemma class_add_spec st d ds cs v s :
  NoDup ds -> lok d cs -> Forall (fun e => ok st ds (snd e)) cs -> ForallOrdPairs (nrel st ds) cs ->
  valid d v -> (exists x, vmem x v) -> ok st ds s -> Forall (fun e => disj e (v, s)) cs ->
  let cs' := class_add O cs v s in
  lok d cs' /\ Forall (fun e => ok st ds (snd e)) cs' /\ ForallOrdPairs (nrel st ds) cs' /\
  (forall p, lmem ds d p cs' <-> lmem ds d p cs \/ (vmem (p d) v /\ tmem ds p s)) /\
  (forall x, covers cs' x <-> covers cs x \/ vmem x v) /\
  (forall e, In e cs' -> snd e = s \/ exists e0, In e0 cs /\ snd e0 = snd e) /\ cs' <> [].
Proof.
  intros N K F R Vv Nv Os D. induction cs as [|[v' s'] t IH]; simpl.
  - repeat split; auto; try discriminate.
    + repeat constructor; auto.
    + repeat constructor.
    + repeat constructor.
    + rewrite lmem_cons. tauto.
    + rewrite lmem_cons. tauto.
    + intros [e [[<-|[]] H]]; auto.
    + intros [[e [[] H]]|H]. exists (v, s); simpl; auto.
    + intros e [<-|[]]. auto.
  - destruct K as [K PD]. inversion K as [|? ? [K1 K2] K3]; subst. inversion PD as [|? ? PD1 PD2]; subst.
    inversion F as [|? ? F1 F2]; subst. inversion R as [|? ? R1 R2]; subst.
    inversion D as [|? ? D1 D2]; subst. simpl in *.
    destruct (hc_eqb O s' s) eqn:E.
    + assert (Em : forall p, tmem ds p s' <-> tmem ds p s).
      { intro p. destruct F1, Os. eapply eqb_sound; eauto. }
      assert (Mor : forall x, vmem x (vor O v' v) <-> vmem x v' \/ vmem x v).
      { intro x. apply (L_or _ _ _ L d); auto. }
      repeat split; auto; try discriminate.
      * constructor; auto. simpl. split; [apply (L_or_valid _ _ _ L); auto|].
        destruct K2 as [x Hx]. exists x. apply Mor. auto.
      * constructor; auto. apply Forall_forall. intros e He x. simpl. rewrite Mor. intros [H|H] H2.
        -- rewrite Forall_forall in PD1. apply (PD1 e He x); auto.
        -- rewrite Forall_forall in D2. apply (D2 e He x); auto.
      * constructor; auto.
      * rewrite !lmem_cons, Mor. rewrite Em. tauto.
      * rewrite !lmem_cons, Mor. rewrite Em. tauto.
      * intros [e [[<-|H] M]]; simpl in M.
        -- apply Mor in M as [M|M]; auto. left. exists (v', s'); simpl; auto.
        -- left. exists e; simpl; auto.
      * intros [[e [[<-|H] M]]|M].
        -- exists (vor O v' v, s'); simpl. split; auto. apply Mor; auto.
        -- exists e; simpl; auto.
        -- exists (vor O v' v, s'); simpl. split; auto. apply Mor; auto.
      * intros e [<-|H]; simpl; right; [exists (v', s')|exists e]; auto.
    + destruct IH as [[A1 A2] [A3 [A4 [A5 [A6 [A7 A8]]]]]]; auto; [split; auto|].
      repeat split; try discriminate.
      * constructor; auto.
      * constructor; auto. apply Forall_forall. intros e He x H1 H2. simpl in H1.
        assert (C : covers (class_add O t v s) x) by (exists e; auto).
        apply A6 in C as [[e0 [He0 M0]]|M0].
        -- rewrite Forall_forall in PD1. apply (PD1 e0 He0 x); auto.
        -- apply (D1 x); auto.
      * constructor; auto.
      * constructor; auto. apply Forall_forall. intros e He. unfold nrel. simpl. intros Hr.
        destruct (A7 e He) as [Es|[e0 [He0 Es]]].
        -- rewrite Es in Hr. destruct F1, Os.
           assert (hc_eqb O s' s = true) by (eapply (eqb_complete O vmem valid L st ds); eauto). congruence.
        -- rewrite Forall_forall in R1. apply (R1 e0 He0). simpl. rewrite Es. auto.
      * rewrite !lmem_cons, A5. tauto.
      * rewrite !lmem_cons, A5. tauto.
      * intros [e [[<-|H] M]].
        -- left. exists (v', s'); simpl; auto.
        -- assert (C : covers (class_add O t v s) x) by (exists e; auto).
           apply A6 in C as [[e0 [He0 M0]]|M0]; auto. left. exists e0. simpl; auto.
      * intros [[e [[<-|H] M]]|M].
        -- exists (v', s'); simpl; auto.
        -- assert (C : covers (class_add O t v s) x) by (apply A6; left; exists e; auto).
           destruct C as [e0 [He0 M0]]. exists e0. simpl; auto.
        -- assert (C : covers (class_add O t v s) x) by (apply A6; auto).
           destruct C as [e0 [He0 M0]]. exists e0. simpl; auto.
      * intros e [<-|H].
        -- right. exists (v', s'); simpl; auto.
        -- destruct (A7 e H) as [Es|[e0 [He0 Es]]]; auto. right. exists e0; simpl; auto.
Qed.

Lemma class_fold_spec st d ds rest cs :
  NoDup ds -> lok d cs -> lok d rest -> (forall a b, In a cs -> In b rest -> disj a b) ->
  Forall (fun e => ok st ds (snd e)) cs -> Forall (fun e => ok st ds (snd e)) rest ->
  ForallOrdPairs (nrel st ds) cs ->
  let r := fold_left (fun cs p => class_add O cs (fst p) (snd p)) rest cs in
  lok d r /\ Forall (fun e => ok st ds (snd e)) r /\ ForallOrdPairs (nrel st ds) r /\
  (forall p, lmem ds d p r <-> lmem ds d p cs \/ lmem ds d p rest) /\ (r = [] -> cs = [] /\ rest = []).
Proof.
  intros N. revert cs. induction rest as [|[v s] t IH]; intros cs Lc Lr Dj Fc Fr R; cbn [fold_left].
  - split; auto. split; auto. split; auto. split; auto. intro p. rewrite lmem_nil. tauto.
  - destruct Lr as [Kr Dr]. inversion Kr as [|? ? [K1 K2] K3]; subst. inversion Dr as [|? ? D1 D2]; subst.
    inversion Fr as [|? ? F1 F2]; subst. simpl fst in *. simpl snd in *.
    destruct (class_add_spec st d ds cs v s) as [A1 [A2 [A3 [A4 [A5 [A6 A7]]]]]]; auto.
    { apply Forall_forall. intros e He. apply Dj; simpl; auto. }
    destruct (IH (class_add O cs v s)) as [B1 [B2 [B3 [B4 B5]]]]; auto.
    { split; auto. }
    { intros a b Ha Hb x M1 M2.
      assert (C : covers (class_add O cs v s) x) by (exists a; auto).
      apply A5 in C as [[e [He M]]|M].
      - apply (Dj e b He (or_intror Hb) x); auto.
      - rewrite Forall_forall in D1. apply (D1 b Hb x); auto. }
    split; auto. split; auto. split; auto. split.
    + intro p. rewrite B4, A4, lmem_cons. tauto.
    + intros H. apply B5 in H as [H _]. contradiction.
Qed.

Lemma apply_union_spec st d ds ls :
  NoDup ds -> lok d ls -> Forall (fun e => ok st ds (snd e)) ls ->
  let r := apply_union O ls in
  lok d r /\ Forall (fun e => ok st ds (snd e)) r /\ ForallOrdPairs (nrel st ds) r /\
  (forall p, lmem ds d p r <-> lmem ds d p ls) /\ (r = [] -> ls = []).
Proof.
  intros N Lk F r. unfold r, apply_union.
  assert (L0 : lok d []) by (split; constructor).
  destruct (class_fold_spec st d ds ls [] N L0 Lk) as [A1 [A2 [A3 [A4 A5]]]];
    [intros a b [] | constructor | exact F | constructor | ].
  rewrite (dict_of_id O vmem valid L d) by auto.
  split; [exact A1|]. split; [exact A2|]. split; [exact A3|]. split.
  - intro p. rewrite A4, lmem_nil. tauto.
  - intros H. apply A5 in H. tauto.
Qed.

(** Building a node from an assignment list. *)
Lemma node_of_asg st d ds asg M :
  NoDup ds -> lok d asg -> Forall (fun e => ok st ds (snd e)) asg ->
  (forall p, indom p -> (lmem ds d p asg <-> M p)) ->
  exists ls, Node Plain (d :: ds) (apply_union O (dict_of O asg)) = Node Plain (d :: ds) ls /\
    (ls = [] \/ gc st (d :: ds) (Node Plain (d :: ds) ls)) /\
    (forall p, indom p -> (tmem (d :: ds) p (Node Plain (d :: ds) ls) <-> M p)).
Proof.
  intros N Lk F HM. rewrite (dict_of_id O vmem valid L d) by auto.
  destruct (apply_union_spec st d ds asg N Lk F) as [A1 [A2 [A3 [A4 A5]]]].
  exists (apply_union O asg). split; auto. split.
  - destruct (apply_union O asg) eqn:E; auto. right. simpl. repeat split; auto; try discriminate; try apply A1.
  - intros p Hp. rewrite <- HM by auto. rewrite <- A4. simpl. unfold lmem. tauto.
Qed.

(** ** Disjointness of assignment lists *)
Lemma flat_map_disj (f : entry -> list entry) l :
  pdisj l -> (forall e, In e l -> pdisj (f e)) ->
  (forall e e' x, In e l -> In e' (f e) -> vmem x (fst e') -> vmem x (fst e)) ->
  pdisj (flat_map f l).
Proof.
  intros D H1 H2. induction D; simpl; [constructor|].
  apply FOP_app.
  - apply H1; simpl; auto.
  - apply IHD; intros; [apply H1|eapply H2]; simpl; eauto.
  - intros e e' He He' x M M'. apply in_flat_map in He' as [b [Hb He']].
    rewrite Forall_forall in H. apply (H b Hb x); eapply H2; simpl; eauto.
Qed.

Lemma keyok_flat_map {A} d (f : A -> list entry) l :
  (forall a, In a l -> keyok d (f a)) -> keyok d (flat_map f l).
Proof.
  intros H. apply Forall_forall. intros e He. apply in_flat_map in He as [a [Ha He]].
  specialize (H a Ha). unfold HyperFacts.keyok in H. rewrite Forall_forall in H. auto.
Qed.

Lemma Forall_flat_map {A B} (Q : B -> Prop) (f : A -> list B) l :
  (forall a, In a l -> Forall Q (f a)) -> Forall Q (flat_map f l).
Proof.
  intros H. apply Forall_forall. intros e He. apply in_flat_map in He as [a [Ha He]].
  specialize (H a Ha). rewrite Forall_forall in H. auto.
Qed.

Lemma rem_self_spec d v l : valid d v -> keyok d l ->
  valid d (rem_self O v l) /\
  (forall x, vmem x (rem_self O v l) <-> vmem x v /\ ~ covers l x).
Proof.
  intros Vv K. unfold rem_self.
  assert (G : forall r, valid d r ->
    let q := fold_left (fun r p => let c := vand O v (fst p) in if vbool O c then vsub O r c else r) l r in
    valid d q /\ (forall x, vmem x q <-> vmem x r /\ ~ (vmem x v /\ covers l x))).
  { clear - Vv K L. induction l as [|e t IH]; intros r Vr; cbn [fold_left].
    - split; auto. intros x; split; [|tauto]. intros H; split; auto. intros [_ [e [[] _]]].
    - inversion K as [|? ? [K1 K2] K3]; subst.
      assert (Va : valid d (vand O v (fst e))) by (apply (L_and_valid _ _ _ L); auto).
      assert (Ma : forall x, vmem x (vand O v (fst e)) <-> vmem x v /\ vmem x (fst e))
        by (intro x; apply (L_and _ _ _ L d); auto).
      assert (Cc : forall x, covers (e :: t) x <-> vmem x (fst e) \/ covers t x).
      { intro x. unfold covers. simpl. split.
        - intros [e' [[<-|H] M]]; eauto.
        - intros [M|[e' [H M]]]; eauto. }
      destruct (vbool O (vand O v (fst e))) eqn:E.
      + destruct (IH K3 (vsub O r (vand O v (fst e)))) as [A B].
        { apply (L_sub_valid _ _ _ L); auto. }
        split; auto. intro x. rewrite B, (L_sub _ _ _ L d), Ma, Cc by auto. tauto.
      + destruct (IH K3 r Vr) as [A B]. split; auto. intro x. rewrite B, Cc.
        pose proof (vbool_false O vmem valid L d _ Va E x) as Hn. rewrite Ma in Hn. tauto. }
  destruct (G v Vv) as [A B]. split; auto. intro x. rewrite B. tauto.
Qed.

Lemma rem_other_spec d v l : valid d v -> keyok d l ->
  valid d (rem_other O v l) /\
  (forall x, vmem x (rem_other O v l) <-> vmem x v /\ ~ covers l x).
Proof.
  intros Vv K. unfold rem_other.
  assert (G : forall r, valid d r ->
    let q := fold_left (fun r p => let c := vand O (fst p) v in if vbool O c then vsub O r c else r) l r in
    valid d q /\ (forall x, vmem x q <-> vmem x r /\ ~ (vmem x v /\ covers l x))).
  { clear - Vv K L. induction l as [|e t IH]; intros r Vr; cbn [fold_left].
    - split; auto. intros x; split; [|tauto]. intros H; split; auto. intros [_ [e [[] _]]].
    - inversion K as [|? ? [K1 K2] K3]; subst.
      assert (Va : valid d (vand O (fst e) v)) by (apply (L_and_valid _ _ _ L); auto).
      assert (Ma : forall x, vmem x (vand O (fst e) v) <-> vmem x (fst e) /\ vmem x v)
        by (intro x; apply (L_and _ _ _ L d); auto).
      assert (Cc : forall x, covers (e :: t) x <-> vmem x (fst e) \/ covers t x).
      { intro x. unfold covers. simpl. split.
        - intros [e' [[<-|H] M]]; eauto.
        - intros [M|[e' [H M]]]; eauto. }
      destruct (vbool O (vand O (fst e) v)) eqn:E.
      + destruct (IH K3 (vsub O r (vand O (fst e) v))) as [A B].
        { apply (L_sub_valid _ _ _ L); auto. }
        split; auto. intro x. rewrite B, (L_sub _ _ _ L d), Ma, Cc by auto. tauto.
      + destruct (IH K3 r Vr) as [A B]. split; auto. intro x. rewrite B, Cc.
        pose proof (vbool_false O vmem valid L d _ Va E x) as Hn. rewrite Ma in Hn. tauto. }
  destruct (G v Vv) as [A B]. split; auto. intro x. rewrite B. tauto.
Qed.

Lemma covers_dec d l x : keyok d l -> covers l x \/ ~ covers l x.
Proof.
  intros K. induction l as [|e t IH].
  - right. intros [e [[] _]].
  - inversion K as [|? ? [K1 K2] K3]; subst. destruct (IH K3) as [[e' [H M]]|N].
    + left. exists e'. simpl; auto.
    + destruct (vmem_dec O vmem valid L d (fst e) x K1) as [M|M].
      * left. exists e. simpl; auto.
      * right. intros [e' [[<-|H] M']]; auto. apply N. exists e'; auto.
Qed.

(** Result of a recursive operation. *)
Definition result st ds (h : hc) (M : (dim -> P) -> Prop) : Prop :=
  exists ls, h = Node Plain ds ls /\ (ls = [] \/ gc st ds h) /\ (forall p, indom p -> (tmem ds p h <-> M p)).

Lemma result_truthy st d ds h M : result st (d :: ds) h M -> hbool h = true ->
  ok st (d :: ds) h /\ (forall p, indom p -> (tmem (d :: ds) p h <-> M p)).
Proof.
  intros [ls [-> [[->|G] HM]]] B; [discriminate|]. split; auto. split; auto.
  destruct st; simpl; auto. discriminate.
Qed.
Lemma result_falsy st d ds h M p : result st (d :: ds) h M -> hbool h = false -> indom p -> ~ M p.
Proof.
  intros [ls [-> [[->|G] HM]]] B Hp.
  - rewrite <- HM by auto. simpl. intros [v [s [[] _]]].
  - destruct (gc_inv _ _ _ _ _ _ _ G) as [c [ls' [E [NE _]]]]. injection E as _ <-.
    destruct ls; simpl in B; congruence.
Qed.

(** The pairs (v1,s1) x (v2,s2) contributing [f s1 s2] under the common part. *)
Definition pair_asg (keep : hc -> hc -> option hc) (v1 : V) (s1 : hc) (l2 : list entry) : list entry :=
  flat_map (fun p2 => match p2 with (v2, s2) =>
     let c := vand O v1 v2 in
     if negb (vbool O c) then [] else match keep s1 s2 with Some s => [(c, s)] | None => [] end end) l2.

Lemma pair_asg_keys d keep v1 s1 l2 : valid d v1 -> lok d l2 ->
  lok d (pair_asg keep v1 s1 l2) /\
  (forall e x, In e (pair_asg keep v1 s1 l2) -> vmem x (fst e) -> vmem x v1 /\ covers l2 x).
Proof.
  intros V1 [K2 D2]. unfold pair_asg.
  assert (S : forall v2 s2 e x, In (v2, s2) l2 ->
     In e (let c := vand O v1 v2 in if negb (vbool O c) then [] else
            match keep s1 s2 with Some s => [(c, s)] | None => [] end) ->
     valid d (fst e) /\ (exists y, vmem y (fst e)) /\ (vmem x (fst e) -> vmem x v1 /\ vmem x v2)).
  { intros v2 s2 e x Hin H. cbv zeta in H. destruct (keyok_in _ _ _ _ _ _ K2 Hin) as [W2 _].
    assert (Va : valid d (vand O v1 v2)) by (apply (L_and_valid _ _ _ L); auto).
    destruct (vbool O (vand O v1 v2)) eqn:E; simpl in H; [|contradiction].
    destruct (keep s1 s2); simpl in H; [|contradiction]. destruct H as [<-|[]]. simpl.
    repeat split; auto.
    - apply (vbool_true O vmem valid L d); auto.
    - apply (L_and _ _ _ L d) in H; tauto.
    - apply (L_and _ _ _ L d) in H; tauto. }
  repeat split.
  - apply keyok_flat_map. intros [v2 s2] Hin. apply Forall_forall. intros e He.
    destruct (indom_ex O vmem valid L) as [q _].
    destruct (S v2 s2 e (q 0) Hin He) as [A [B _]]. auto.
  - apply flat_map_disj; auto.
    + intros [v2 s2] Hin. cbv zeta. destruct (negb (vbool O (vand O v1 v2))); [constructor|].
      destruct (keep s1 s2); repeat constructor.
    + intros [v2 s2] e x Hin He M. simpl. apply (S v2 s2 e x Hin He); auto.
  - apply in_flat_map in H as [[v2 s2] [Hin He]]. apply (S v2 s2 e x Hin He); auto.
  - apply in_flat_map in H as [[v2 s2] [Hin He]]. exists (v2, s2). split; auto.
    apply (S v2 s2 e x Hin He); auto.
Qed.

Lemma pair_asg_ok st ds keep v1 s1 l2 :
  (forall v2 s2 s, In (v2, s2) l2 -> keep s1 s2 = Some s -> ok st ds s) ->
  Forall (fun e => ok st ds (snd e)) (pair_asg keep v1 s1 l2).
Proof.
  intros H. apply Forall_flat_map. intros [v2 s2] Hin. cbv zeta.
  destruct (negb (vbool O (vand O v1 v2))); [constructor|].
  destruct (keep s1 s2) eqn:E; repeat constructor; simpl; apply (H v2 s2 h Hin E).
Qed.

Lemma pair_asg_lmem d ds keep v1 s1 l2 p (M : hc -> Prop) : valid d v1 -> keyok d l2 ->
  (forall v2 s2 s, In (v2, s2) l2 -> keep s1 s2 = Some s -> (tmem ds p s <-> M s2)) ->
  (forall v2 s2, In (v2, s2) l2 -> keep s1 s2 = None -> ~ M s2) ->
  (lmem ds d p (pair_asg keep v1 s1 l2) <->
   vmem (p d) v1 /\ exists v2 s2, In (v2, s2) l2 /\ vmem (p d) v2 /\ M s2).
Proof.
  intros V1 K2 H1 H2. unfold pair_asg. rewrite lmem_flat_map.
  split.
  - intros [[v2 s2] [Hin Hl]]. cbv zeta in Hl.
    destruct (keyok_in _ _ _ _ _ _ K2 Hin) as [W2 _].
    destruct (negb (vbool O (vand O v1 v2))); [apply lmem_nil in Hl; contradiction|].
    destruct (keep s1 s2) eqn:E; [|apply lmem_nil in Hl; contradiction].
    apply lmem_cons in Hl as [[A B]|Hl]; [|apply lmem_nil in Hl; contradiction].
    apply (L_and _ _ _ L d) in A as [A1 A2]; auto. split; auto.
    exists v2, s2. repeat split; auto. apply (H1 v2 s2 h); auto.
  - intros [A1 [v2 [s2 [Hin [A2 B]]]]]. exists (v2, s2). split; auto. cbv zeta.
    destruct (keyok_in _ _ _ _ _ _ K2 Hin) as [W2 _].
    assert (Mc : vmem (p d) (vand O v1 v2)) by (apply (L_and _ _ _ L d); auto).
    assert (Eb : vbool O (vand O v1 v2) = true).
    { apply (L_bool _ _ _ L d); [apply (L_and_valid _ _ _ L); auto|eauto]. }
    rewrite Eb. simpl. destruct (keep s1 s2) eqn:E.
    + apply lmem_cons. left. split; auto. apply (H1 v2 s2 h); auto.
    + exfalso. apply (H2 v2 s2 Hin E); auto.
Qed.

Lemma flat_map_ext_in {A B} (f g : A -> list B) l :
  (forall a, In a l -> f a = g a) -> flat_map f l = flat_map g l.
Proof. induction l; simpl; intros H; auto. rewrite H, IHl; auto. Qed.

Lemma is_last_cons (d : dim) ds : is_last (d :: ds) = match ds with [] => true | _ => false end.
Proof. destruct ds; reflexivity. Qed.

Lemma ok_leaf st : ok st [] Leaf.
Proof. split; simpl; auto. destruct st; simpl; auto. discriminate. Qed.

(** *** Intersection *)
Definition and_keep (last : bool) (s1 s2 : hc) : option hc :=
  if last then Some Leaf else let s := and_aux O s1 s2 in if hbool s then Some s else None.

Lemma and_aux_unfold c1 c2 a l1 l2 :
  and_aux O (Node c1 a l1) (Node c2 a l2) =
  Node Plain a (apply_union O (dict_of O
    (flat_map (fun p1 => pair_asg (and_keep (is_last a)) (fst p1) (snd p1) l2) l1))).
Proof.
  cbn [and_aux]. rewrite dims_eqb_refl. simpl negb. cbv iota. do 3 f_equal.
  apply flat_map_ext_in. intros [v1 s1] _. unfold pair_asg. apply flat_map_ext_in. intros [v2 s2] _.
  cbv zeta. simpl fst. simpl snd. destruct (negb (vbool O (vand O v1 v2))); auto.
  unfold and_keep. destruct (is_last a); auto. cbv zeta. destruct (hbool (and_aux O s1 s2)); auto.
Qed.

(** All nodes of an intersection are new: it is canonical even if the operands' class tags are mixed. *)
Lemma and_aux_rebuilds st st0 ds h1 h2 : NoDup ds -> ds <> [] -> gc st0 ds h1 -> gc st0 ds h2 ->
  result st ds (and_aux O h1 h2) (fun p => tmem ds p h1 /\ tmem ds p h2).
Proof.
  revert h1 h2. induction ds as [|d ds IH]; intros h1 h2 N NE G1 G2; [congruence|].
  inversion N as [|? ? Nd Nds]; subst.
  destruct (gc_inv _ _ _ _ _ _ _ G1) as [c1 [l1 [-> [_ [[K1 D1] [F1 _]]]]]].
  destruct (gc_inv _ _ _ _ _ _ _ G2) as [c2 [l2 [-> [_ [[K2 D2] [F2 _]]]]]].
  rewrite Forall_forall in F1, F2.
  rewrite and_aux_unfold, is_last_cons.
  set (last := match ds with [] => true | _ => false end).
  assert (Keep : forall v1 s1 v2 s2, In (v1, s1) l1 -> In (v2, s2) l2 ->
     (forall s, and_keep last s1 s2 = Some s -> ok st ds s /\
                (forall p, indom p -> (tmem ds p s <-> tmem ds p s1 /\ tmem ds p s2))) /\
     (and_keep last s1 s2 = None -> forall p, indom p -> ~ (tmem ds p s1 /\ tmem ds p s2))).
  { intros v1 s1 v2 s2 H H0. destruct (F1 _ H) as [Gs1 _]. destruct (F2 _ H0) as [Gs2 _]. simpl in *.
    unfold and_keep, last. destruct ds as [|d' ds'].
    - split; [|discriminate]. intros s E. injection E as <-. split; [apply ok_leaf|].
      intros p _. simpl; tauto.
    - assert (NE' : d' :: ds' <> []) by discriminate.
      pose proof (IH s1 s2 Nds NE' Gs1 Gs2) as R. cbv zeta. destruct (hbool (and_aux O s1 s2)) eqn:E.
      + split; [|discriminate]. intros s Es. injection Es as <-.
        eapply result_truthy; eauto.
      + split; [discriminate|]. intros _ p Hp. apply (result_falsy _ _ _ _ _ p R E Hp). }
  destruct (node_of_asg st d ds
     (flat_map (fun p1 => pair_asg (and_keep last) (fst p1) (snd p1) l2) l1)
     (fun p => tmem (d :: ds) p (Node c1 (d :: ds) l1) /\ tmem (d :: ds) p (Node c2 (d :: ds) l2)))
    as [ls [E [A B]]]; auto.
  - split.
    + apply keyok_flat_map. intros [v1 s1] Hin. apply (pair_asg_keys d); auto.
      * apply (keyok_in _ _ _ _ _ _ K1 Hin). * split; auto.
    + apply flat_map_disj; auto.
      * intros [v1 s1] Hin. apply (pair_asg_keys d); auto.
        -- apply (keyok_in _ _ _ _ _ _ K1 Hin). -- split; auto.
      * intros [v1 s1] e x Hin He M. simpl in *.
        destruct (pair_asg_keys d (and_keep last) v1 s1 l2) as [_ Q]; auto.
        -- apply (keyok_in _ _ _ _ _ _ K1 Hin). -- split; auto.
        -- apply (Q e x He M).
  - apply Forall_flat_map. intros [v1 s1] Hin. apply pair_asg_ok. intros v2 s2 s Hin2 E.
    simpl in *. apply (Keep v1 s1 v2 s2 Hin Hin2); auto.
  - intros p Hp. rewrite lmem_flat_map. split.
    + intros [[v1 s1] [Hin Hl]]. simpl fst in Hl. simpl snd in Hl.
      apply (pair_asg_lmem d ds _ v1 s1 l2 p (fun s2 => tmem ds p s1 /\ tmem ds p s2)) in Hl; auto.
      * destruct Hl as [A1 [v2 [s2 [Hin2 [A2 [T1 T2]]]]]]. split; simpl; [exists v1, s1|exists v2, s2]; auto.
      * apply (keyok_in _ _ _ _ _ _ K1 Hin).
      * intros v2 s2 s Hin2 E. apply (Keep v1 s1 v2 s2 Hin Hin2); auto.
      * intros v2 s2 Hin2 E. apply (Keep v1 s1 v2 s2 Hin Hin2); auto.
    + intros [[v1 [s1 [Hin [A1 T1]]]] [v2 [s2 [Hin2 [A2 T2]]]]].
      exists (v1, s1). split; auto. simpl fst. simpl snd.
      apply (pair_asg_lmem d ds _ v1 s1 l2 p (fun s2 => tmem ds p s1 /\ tmem ds p s2)); auto.
      * apply (keyok_in _ _ _ _ _ _ K1 Hin).
      * intros v2' s2' s Hin2' E. apply (Keep v1 s1 v2' s2' Hin Hin2'); auto.
      * intros v2' s2' Hin2' E. apply (Keep v1 s1 v2' s2' Hin Hin2'); auto.
      * split; auto. exists v2, s2. auto.
  - rewrite E. exists ls. auto.
Qed.
Lemma and_aux_spec st ds h1 h2 : NoDup ds -> ds <> [] -> gc st ds h1 -> gc st ds h2 ->
  result st ds (and_aux O h1 h2) (fun p => tmem ds p h1 /\ tmem ds p h2).
Proof. apply and_aux_rebuilds. Qed.

(** *** Subtraction *)
Definition sub_keep (last : bool) (s1 s2 : hc) : option hc :=
  if last then None else let s := sub_aux O s1 s2 in if hbool s then Some s else None.

Definition with_rem (keep : hc -> hc -> option hc) (l2 : list entry) (p1 : entry) : list entry :=
  pair_asg keep (fst p1) (snd p1) l2 ++
  (let r := rem_self O (fst p1) l2 in if vbool O r then [(r, snd p1)] else []).

Lemma sub_aux_unfold c1 c2 a l1 l2 :
  sub_aux O (Node c1 a l1) (Node c2 a l2) =
  Node Plain a (apply_union O (dict_of O (flat_map (with_rem (sub_keep (is_last a)) l2) l1))).
Proof.
  cbn [sub_aux]. rewrite dims_eqb_refl. simpl negb. cbv iota. do 3 f_equal.
  apply flat_map_ext_in. intros [v1 s1] _. unfold with_rem, pair_asg. f_equal.
  apply flat_map_ext_in. intros [v2 s2] _.
  cbv zeta. simpl fst. simpl snd. destruct (negb (vbool O (vand O v1 v2))); auto.
  unfold sub_keep. destruct (is_last a); auto. cbv zeta. destruct (hbool (sub_aux O s1 s2)); auto.
Qed.

Lemma with_rem_keys d keep l2 v1 s1 : valid d v1 -> lok d l2 ->
  lok d (with_rem keep l2 (v1, s1)) /\
  (forall e x, In e (with_rem keep l2 (v1, s1)) -> vmem x (fst e) -> vmem x v1).
Proof.
  intros V1 L2. unfold with_rem. simpl fst; simpl snd.
  destruct (pair_asg_keys d keep v1 s1 l2 V1 L2) as [[A1 A2] A3].
  destruct (rem_self_spec d v1 l2 V1 (proj1 L2)) as [R1 R2]. cbv zeta.
  destruct (vbool O (rem_self O v1 l2)) eqn:E.
  - repeat split.
    + apply Forall_app. split; auto. constructor; [|constructor]. simpl. split; auto.
      apply (vbool_true O vmem valid L d); auto.
    + apply FOP_app; auto. repeat constructor.
      intros a b Ha [<-|[]] x M1 M2. simpl in M2. apply R2 in M2 as [_ M2]. apply M2.
      apply (A3 a x Ha M1).
    + intros e x He M. apply in_app_iff in He as [He|[<-|[]]].
      * apply (A3 e x He M).
      * simpl in M. apply R2 in M. tauto.
  - rewrite app_nil_r. repeat split; auto. intros e x He M. apply (A3 e x He M).
Qed.

Lemma with_rem_lmem d ds keep l2 v1 s1 p (M : hc -> Prop) : valid d v1 -> keyok d l2 ->
  (forall v2 s2 s, In (v2, s2) l2 -> keep s1 s2 = Some s -> (tmem ds p s <-> M s2)) ->
  (forall v2 s2, In (v2, s2) l2 -> keep s1 s2 = None -> ~ M s2) ->
  (lmem ds d p (with_rem keep l2 (v1, s1)) <->
   vmem (p d) v1 /\ ((exists v2 s2, In (v2, s2) l2 /\ vmem (p d) v2 /\ M s2) \/
                     (~ covers l2 (p d) /\ tmem ds p s1))).
Proof.
  intros V1 K2 H1 H2. unfold with_rem. simpl fst; simpl snd.
  rewrite lmem_app, (pair_asg_lmem d ds keep v1 s1 l2 p M V1 K2 H1 H2).
  destruct (rem_self_spec d v1 l2 V1 K2) as [R1 R2]. cbv zeta.
  destruct (vbool O (rem_self O v1 l2)) eqn:E.
  - rewrite lmem_cons, lmem_nil, R2. tauto.
  - rewrite lmem_nil. pose proof (vbool_false O vmem valid L d _ R1 E (p d)) as Hn. rewrite R2 in Hn. tauto.
Qed.

Lemma sub_aux_spec st ds h1 h2 : NoDup ds -> ds <> [] -> gc st ds h1 -> gc st ds h2 ->
  result st ds (sub_aux O h1 h2) (fun p => tmem ds p h1 /\ ~ tmem ds p h2).
Proof.
  revert h1 h2. induction ds as [|d ds IH]; intros h1 h2 N NE G1 G2; [congruence|].
  inversion N as [|? ? Nd Nds]; subst.
  destruct (gc_inv _ _ _ _ _ _ _ G1) as [c1 [l1 [-> [_ [[K1 D1] [F1 _]]]]]].
  destruct (gc_inv _ _ _ _ _ _ _ G2) as [c2 [l2 [-> [_ [[K2 D2] [F2 _]]]]]].
  rewrite Forall_forall in F1, F2.
  rewrite sub_aux_unfold, is_last_cons.
  set (last := match ds with [] => true | _ => false end).
  assert (Keep : forall v1 s1 v2 s2, In (v1, s1) l1 -> In (v2, s2) l2 ->
     (forall s, sub_keep last s1 s2 = Some s -> ok st ds s /\
                (forall p, indom p -> (tmem ds p s <-> tmem ds p s1 /\ ~ tmem ds p s2))) /\
     (sub_keep last s1 s2 = None -> forall p, indom p -> ~ (tmem ds p s1 /\ ~ tmem ds p s2))).
  { intros v1 s1 v2 s2 H H0. destruct (F1 _ H) as [Gs1 _]. destruct (F2 _ H0) as [Gs2 _]. simpl in *.
    unfold sub_keep, last. destruct ds as [|d' ds'].
    - split; [discriminate|]. intros _ p _. simpl; tauto.
    - assert (NE' : d' :: ds' <> []) by discriminate.
      pose proof (IH s1 s2 Nds NE' Gs1 Gs2) as R. cbv zeta. destruct (hbool (sub_aux O s1 s2)) eqn:E.
      + split; [|discriminate]. intros s Es. injection Es as <-.
        eapply result_truthy; eauto.
      + split; [discriminate|]. intros _ p Hp. apply (result_falsy _ _ _ _ _ p R E Hp). }
  destruct (node_of_asg st d ds (flat_map (with_rem (sub_keep last) l2) l1)
     (fun p => tmem (d :: ds) p (Node c1 (d :: ds) l1) /\ ~ tmem (d :: ds) p (Node c2 (d :: ds) l2)))
    as [ls [E [A B]]]; auto.
  - split.
    + apply keyok_flat_map. intros [v1 s1] Hin. apply (with_rem_keys d); auto.
      * apply (keyok_in _ _ _ _ _ _ K1 Hin). * split; auto.
    + apply flat_map_disj; auto.
      * intros [v1 s1] Hin. apply (with_rem_keys d); auto.
        -- apply (keyok_in _ _ _ _ _ _ K1 Hin). -- split; auto.
      * intros [v1 s1] e x Hin He M. simpl in *.
        destruct (with_rem_keys d (sub_keep last) l2 v1 s1) as [_ Q]; auto.
        -- apply (keyok_in _ _ _ _ _ _ K1 Hin). -- split; auto.
        -- apply (Q e x He M).
  - apply Forall_flat_map. intros [v1 s1] Hin. unfold with_rem. apply Forall_app. split.
    + apply pair_asg_ok. intros v2 s2 s Hin2 E.
      simpl in *. apply (Keep v1 s1 v2 s2 Hin Hin2); auto.
    + cbv zeta. simpl fst. destruct (vbool O (rem_self O v1 l2)); constructor; [|constructor].
      simpl. apply (F1 _ Hin).
  - intros p Hp. rewrite lmem_flat_map. split.
    + intros [[v1 s1] [Hin Hl]].
      apply (with_rem_lmem d ds _ l2 v1 s1 p (fun s2 => tmem ds p s1 /\ ~ tmem ds p s2)) in Hl; auto.
      * destruct Hl as [A1 [[v2 [s2 [Hin2 [A2 [T1 T2]]]]]|[Nc T1]]].
        -- split; [simpl; exists v1, s1; auto|]. intro T.
           apply (node_section vmem d ds c2 (d :: ds) l2 p v2 s2) in T; auto.
        -- split; [simpl; exists v1, s1; auto|]. intros [v2 [s2 [Hin2 [A2 T2]]]].
           apply Nc. exists (v2, s2). auto.
      * apply (keyok_in _ _ _ _ _ _ K1 Hin).
      * intros v2 s2 s Hin2 E. apply (Keep v1 s1 v2 s2 Hin Hin2); auto.
      * intros v2 s2 Hin2 E. apply (Keep v1 s1 v2 s2 Hin Hin2); auto.
    + intros [[v1 [s1 [Hin [A1 T1]]]] NT].
      exists (v1, s1). split; auto.
      apply (with_rem_lmem d ds _ l2 v1 s1 p (fun s2 => tmem ds p s1 /\ ~ tmem ds p s2)); auto.
      * apply (keyok_in _ _ _ _ _ _ K1 Hin).
      * intros v2' s2' s Hin2' E. apply (Keep v1 s1 v2' s2' Hin Hin2'); auto.
      * intros v2' s2' Hin2' E. apply (Keep v1 s1 v2' s2' Hin Hin2'); auto.
      * split; auto. destruct (covers_dec d l2 (p d) K2) as [[[v2 s2] [Hin2 M2]]|Nc]; auto.
        left. exists v2, s2. simpl in M2. repeat split; auto.
        intro T2. apply NT. simpl. exists v2, s2. auto.
  - rewrite E. exists ls. auto.
Qed.

(** *** Union *)
Definition or_keep (last : bool) (s1 s2 : hc) : option hc :=
  if last then Some Leaf else Some (or_aux O s1 s2).

Definition other_rem (l1 : list entry) (p2 : entry) : list entry :=
  let r := rem_other O (fst p2) l1 in if vbool O r then [(r, snd p2)] else [].

Lemma or_aux_unfold c1 c2 a l1 l2 :
  or_aux O (Node c1 a l1) (Node c2 a l2) =
  Node Plain a (apply_union O (dict_of O
    (flat_map (with_rem (or_keep (is_last a)) l2) l1 ++ flat_map (other_rem l1) l2))).
Proof.
  cbn [or_aux]. rewrite dims_eqb_refl. simpl negb. cbv iota. do 4 f_equal.
  - apply flat_map_ext_in. intros [v1 s1] _. unfold with_rem, pair_asg. f_equal.
    apply flat_map_ext_in. intros [v2 s2] _.
    cbv zeta. simpl fst. simpl snd. destruct (negb (vbool O (vand O v1 v2))); auto.
    unfold or_keep. destruct (is_last a); auto.
  - apply flat_map_ext_in. intros [v2 s2] _. reflexivity.
Qed.

Lemma or_aux_spec st ds h1 h2 : NoDup ds -> ds <> [] -> gc st ds h1 -> gc st ds h2 ->
  result st ds (or_aux O h1 h2) (fun p => tmem ds p h1 \/ tmem ds p h2) /\ hbool (or_aux O h1 h2) = true.
Proof.
  revert h1 h2. induction ds as [|d ds IH]; intros h1 h2 N NE G1 G2; [congruence|].
  inversion N as [|? ? Nd Nds]; subst.
  pose proof (gc_nonempty O vmem valid L st _ h1 N G1) as Pt.
  destruct (gc_inv _ _ _ _ _ _ _ G1) as [c1 [l1 [-> [_ [[K1 D1] [F1 _]]]]]].
  destruct (gc_inv _ _ _ _ _ _ _ G2) as [c2 [l2 [-> [_ [[K2 D2] [F2 _]]]]]].
  rewrite Forall_forall in F1, F2.
  rewrite or_aux_unfold, is_last_cons.
  set (last := match ds with [] => true | _ => false end).
  assert (Keep : forall v1 s1 v2 s2, In (v1, s1) l1 -> In (v2, s2) l2 ->
     exists s, or_keep last s1 s2 = Some s /\ ok st ds s /\
                (forall p, indom p -> (tmem ds p s <-> tmem ds p s1 \/ tmem ds p s2))).
  { intros v1 s1 v2 s2 H H0. destruct (F1 _ H) as [Gs1 _]. destruct (F2 _ H0) as [Gs2 _]. simpl in *.
    unfold or_keep, last. destruct ds as [|d' ds'].
    - exists Leaf. split; auto. split; [apply ok_leaf|]. intros p _. simpl; tauto.
    - assert (NE' : d' :: ds' <> []) by discriminate.
      destruct (IH s1 s2 Nds NE' Gs1 Gs2) as [R E]. eexists; split; [reflexivity|].
      eapply result_truthy; eauto. }
  assert (Keep2 : forall v1 s1 v2 s2 s p, indom p -> In (v1, s1) l1 -> In (v2, s2) l2 ->
     or_keep last s1 s2 = Some s -> (tmem ds p s <-> tmem ds p s1 \/ tmem ds p s2)).
  { intros v1 s1 v2 s2 s p Hp Hin Hin2 E. destruct (Keep v1 s1 v2 s2 Hin Hin2) as [s' [E' [_ T]]].
    rewrite E in E'. injection E' as <-. auto. }
  assert (Keep3 : forall v1 s1 v2 s2, In (v1, s1) l1 -> In (v2, s2) l2 ->
     or_keep last s1 s2 = None -> False).
  { intros v1 s1 v2 s2 Hin Hin2 E. destruct (Keep v1 s1 v2 s2 Hin Hin2) as [s' [E' _]]. congruence. }
  assert (OR : forall v2 s2 e x, In (v2, s2) l2 -> In e (other_rem l1 (v2, s2)) ->
     valid d (fst e) /\ (exists y, vmem y (fst e)) /\ snd e = s2 /\
     (vmem x (fst e) <-> vmem x v2 /\ ~ covers l1 x)).
  { intros v2 s2 e x Hin He. unfold other_rem in He. simpl in He.
    destruct (keyok_in _ _ _ _ _ _ K2 Hin) as [W2 _].
    destruct (rem_other_spec d v2 l1 W2 K1) as [R1 R2].
    destruct (vbool O (rem_other O v2 l1)) eqn:E; simpl in He; [|contradiction].
    destruct He as [<-|[]]. simpl. split; auto. split; [|split; auto].
    apply (vbool_true O vmem valid L d); auto. }
  destruct (indom_ex O vmem valid L) as [q _].
  destruct (node_of_asg st d ds
     (flat_map (with_rem (or_keep last) l2) l1 ++ flat_map (other_rem l1) l2)
     (fun p => tmem (d :: ds) p (Node c1 (d :: ds) l1) \/ tmem (d :: ds) p (Node c2 (d :: ds) l2)))
    as [ls [E [A B]]]; auto.
  - split.
    + apply Forall_app. split.
      * apply keyok_flat_map. intros [v1 s1] Hin. apply (with_rem_keys d); auto.
        -- apply (keyok_in _ _ _ _ _ _ K1 Hin). -- split; auto.
      * apply keyok_flat_map. intros [v2 s2] Hin. apply Forall_forall. intros e He.
        destruct (OR v2 s2 e (q 0) Hin He) as [B1 [B2 _]]. auto.
    + apply FOP_app.
      * apply flat_map_disj; auto.
        -- intros [v1 s1] Hin. apply (with_rem_keys d); auto.
           ++ apply (keyok_in _ _ _ _ _ _ K1 Hin). ++ split; auto.
        -- intros [v1 s1] e x Hin He M. simpl in *.
           destruct (with_rem_keys d (or_keep last) l2 v1 s1) as [_ Q]; auto.
           ++ apply (keyok_in _ _ _ _ _ _ K1 Hin). ++ split; auto.
           ++ apply (Q e x He M).
      * apply flat_map_disj; auto.
        -- intros [v2 s2] Hin. unfold other_rem. cbv zeta.
           destruct (vbool O (rem_other O (fst (v2, s2)) l1)); repeat constructor.
        -- intros [v2 s2] e x Hin He M. simpl. apply (OR v2 s2 e x Hin He); auto.
      * intros a b Ha Hb x M1 M2.
        apply in_flat_map in Ha as [[v1 s1] [Hin1 Ha]]. apply in_flat_map in Hb as [[v2 s2] [Hin2 Hb]].
        apply (OR v2 s2 b x Hin2 Hb) in M2 as [_ M2]. apply M2. exists (v1, s1). split; auto.
        destruct (with_rem_keys d (or_keep last) l2 v1 s1) as [_ Q]; auto.
        -- apply (keyok_in _ _ _ _ _ _ K1 Hin1). -- split; auto.
        -- apply (Q a x Ha M1).
  - apply Forall_app. split.
    + apply Forall_flat_map. intros [v1 s1] Hin. unfold with_rem. apply Forall_app. split.
      * apply pair_asg_ok. intros v2 s2 s Hin2 E. simpl in *.
        destruct (Keep v1 s1 v2 s2 Hin Hin2) as [s' [E' [Ok _]]]. rewrite E in E'. injection E' as <-. auto.
      * cbv zeta. simpl fst. destruct (vbool O (rem_self O v1 l2)); constructor; [|constructor].
        simpl. apply (F1 _ Hin).
    + apply Forall_flat_map. intros [v2 s2] Hin. apply Forall_forall. intros e He.
      destruct (OR v2 s2 e (q 0) Hin He) as [_ [_ [-> _]]]. apply (F2 _ Hin).
  - intros p Hp. rewrite lmem_app, !lmem_flat_map. split.
    + intros [[[v1 s1] [Hin Hl]]|[[v2 s2] [Hin2 Hl]]].
      * apply (with_rem_lmem d ds _ l2 v1 s1 p (fun s2 => tmem ds p s1 \/ tmem ds p s2)) in Hl; auto.
        -- destruct Hl as [A1 [[v2 [s2 [Hin2 [A2 [T1|T2]]]]]|[Nc T1]]].
           ++ left. simpl. exists v1, s1; auto.
           ++ right. simpl. exists v2, s2; auto.
           ++ left. simpl. exists v1, s1; auto.
        -- apply (keyok_in _ _ _ _ _ _ K1 Hin).
        -- intros v2 s2 s Hin2 E. eapply Keep2; eauto.
        -- intros v2 s2 Hin2 E. exfalso. eapply Keep3; eauto.
      * destruct Hl as [v [s [He [M T]]]].
        destruct (OR v2 s2 (v, s) (p d) Hin2 He) as [_ [_ [Es Mv]]]. simpl in *. subst s.
        right. exists v2, s2. repeat split; auto. apply Mv; auto.
    + assert (W1 : forall v1 s1, In (v1, s1) l1 -> vmem (p d) v1 ->
         ((exists v2 s2, In (v2, s2) l2 /\ vmem (p d) v2 /\ (tmem ds p s1 \/ tmem ds p s2)) \/
          (~ covers l2 (p d) /\ tmem ds p s1)) ->
         exists a, In a l1 /\ lmem ds d p (with_rem (or_keep last) l2 a)).
      { intros v1 s1 Hin A1 C. exists (v1, s1). split; auto.
        apply (with_rem_lmem d ds _ l2 v1 s1 p (fun s2 => tmem ds p s1 \/ tmem ds p s2)); auto.
        - apply (keyok_in _ _ _ _ _ _ K1 Hin).
        - intros v2 s2 s Hin2 E. eapply Keep2; eauto.
        - intros v2 s2 Hin2 E. exfalso. eapply Keep3; eauto. }
      intros [[v1 [s1 [Hin [A1 T1]]]]|[v2 [s2 [Hin2 [A2 T2]]]]].
      * left. apply (W1 v1 s1); auto.
        destruct (covers_dec d l2 (p d) K2) as [[[v2 s2] [Hin2 M2]]|Nc]; auto.
        left. exists v2, s2. auto.
      * destruct (covers_dec d l1 (p d) K1) as [[[v1 s1] [Hin1 M1]]|Nc].
        -- left. apply (W1 v1 s1); auto. left. exists v2, s2. auto.
        -- right. exists (v2, s2). split; auto.
           destruct (keyok_in _ _ _ _ _ _ K2 Hin2) as [W2 _].
           destruct (rem_other_spec d v2 l1 W2 K1) as [R1 R2].
           assert (M : vmem (p d) (rem_other O v2 l1)) by (apply R2; auto).
           unfold other_rem. simpl fst. simpl snd. cbv zeta.
           assert (Eb : vbool O (rem_other O v2 l1) = true) by (apply (L_bool _ _ _ L d); eauto).
           rewrite Eb. apply lmem_cons. auto.
  - rewrite E. split; [exists ls; auto|].
    destruct ls; auto. exfalso. destruct Pt as [p [Hp Tp]].
    assert (T : tmem (d :: ds) p (Node Plain (d :: ds) [])) by (apply B; auto).
    simpl in T. destruct T as [v [s [[] _]]].
Qed.
End OpsFacts.
