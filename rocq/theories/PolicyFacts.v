(** * Facts about policies: rule lists, single policies, combination of the policies of a layer. *)
From Coq Require Import ZArith List Bool Arith Lia String.
From Verif Require Import IntervalModel IntervalFacts PortProtoModel PeerModel PeerFacts PeerSetFacts PolicyModel PolicyLaws.
Import ListNotations.
Local Open Scope nat_scope.

(** ** The first element with an opinion decides *)
Definition first_says {X} (says : X -> action -> Prop) (l : list X) (a : action) : Prop :=
  exists pre x post, l = pre ++ x :: post /\ says x a /\ forall y b, In y pre -> ~ says y b.
Definition silent {X} (says : X -> action -> Prop) (l : list X) : Prop := forall y b, In y l -> ~ says y b.

Section First.
Context {X : Type} (says : X -> action -> Prop)
        (dec : forall x, (exists b, says x b) \/ (forall b, ~ says x b))
        (fn : forall x a b, says x a -> says x b -> a = b).

Lemma first_or_silent : forall l, (exists a, first_says says l a) \/ silent says l.
Proof using dec.
  induction l as [|x l IH]; [right; intros y b []|].
  destruct (dec x) as [[b H]|H].
  - left. exists b. exists [], x, l. split; [auto|]. split; [auto|]. intros y c [].
  - destruct IH as [(a & pre & z & post & -> & S & Q)|IH].
    + left. exists a. exists (x :: pre), z, post. split; [auto|]. split; [auto|].
      intros y c [<-|Hy]; auto.
    + right. intros y b [<-|Hy]; auto.
Qed.
Lemma first_not_silent : forall l a, first_says says l a -> ~ silent says l.
Proof. intros l a (pre & x & post & -> & S & _) Q. apply (Q x a); auto. apply in_elt. Qed.
Lemma first_fn : forall l a b, first_says says l a -> first_says says l b -> a = b.
Proof using fn.
  induction l as [|x l IH]; intros a b (pre & y & post & E & S & Q) (pre' & y' & post' & E' & S' & Q').
  - destruct pre; discriminate.
  - destruct pre as [|z pre], pre' as [|z' pre']; cbn [app] in E, E'.
    + injection E as <- <-. injection E' as <- _. eapply fn; eauto.
    + injection E as <- <-. injection E' as <- _. exfalso. apply (Q' x a); simpl; auto.
    + injection E as <- _. injection E' as <- <-. exfalso. apply (Q x b); simpl; auto.
    + injection E as <- ->. injection E' as <- E2. apply IH.
      * exists pre, y, post. split; auto. split; auto. intros w c Hw. apply Q. simpl; auto.
      * exists pre', y', post'. split; auto. split; auto. intros w c Hw. apply Q'. simpl; auto.
Qed.
Lemma first_snoc : forall l x a,
  first_says says (l ++ [x]) a <-> first_says says l a \/ (silent says l /\ says x a).
Proof using.
  intros l x a. split.
  - intros (pre & y & post & E & S & Q).
    destruct post as [|z post] using rev_ind.
    + apply app_inj_tail in E as [-> ->]. right. split; auto.
    + clear IHpost. left. rewrite app_comm_cons, app_assoc in E. apply app_inj_tail in E as [-> _].
      exists pre, y, post. auto.
  - intros [(pre & y & post & -> & S & Q)|[Q S]].
    + exists pre, y, (post ++ [x]). split; [rewrite <- app_assoc; auto|]. auto.
    + exists l, x, []. auto.
Qed.
Lemma silent_snoc : forall l x, silent says (l ++ [x]) <-> silent says l /\ forall b, ~ says x b.
Proof using.
  intros l x. split.
  - intros Q. split; [intros y b Hy; apply Q; apply in_or_app; auto|]. intros b. apply Q. apply in_or_app; simpl; auto.
  - intros [Q1 Q2] y b Hy. apply in_app_or in Hy as [Hy|[<-|[]]]; auto.
Qed.
End First.

Section Facts.
Context {C Pt : Type} (A : cops C) (src dst : Pt -> point) (tcp : Pt -> bool) (space : Pt -> Prop)
        (cmem : Pt -> C -> Prop) (cok : C -> Prop) (csafe : C -> C -> Prop) (reg : list peer)
        (L : claws A src dst tcp space cmem cok csafe reg).
Notation rule := (@rule C). Notation policy := (@policy C).

(** ** Rule lists *)
(** A rule decides a connection when it is not a Log rule and matches it. *)
Definition rule_says (pt : Pt) (r : rule) (a : action) : Prop :=
  r_action r = a /\ a <> Log /\ cmem pt (r_props r).
Definition rules_ok (rs : list rule) : Prop := forall r, In r rs -> cok (r_props r).

(** Every subtraction made while evaluating a Calico rule list is well behaved. *)
Definition calico_safe (rs : list rule) : Prop := forall pre r post al dn ps,
  rs = pre ++ r :: post -> calico_props A pre = (al, dn, ps) ->
  match r_action r with
  | Allow => csafe (r_props r) dn /\ csafe (c_sub A (r_props r) dn) ps
  | Deny => csafe (r_props r) al /\ csafe (c_sub A (r_props r) al) ps
  | Pass => csafe (r_props r) al /\ csafe (c_sub A (r_props r) al) dn
  | Log => True
  end.
Definition solid (x : C) : Prop := forall y, cok y -> csafe x y.
Definition rules_solid (rs : list rule) : Prop := forall r, In r rs -> solid (r_props r).

Lemma rule_dec : forall pt r, cok (r_props r) -> (exists b, rule_says pt r b) \/ (forall b, ~ rule_says pt r b).
Proof using L.
  intros pt r K. unfold rule_says. destruct (l_dec _ _ _ _ _ _ _ _ _ L (r_props r) pt K) as [H|H].
  - destruct (r_action r) eqn:E; try (left; eexists; repeat split; eauto; discriminate).
    right. intros b (<- & H1 & _). congruence.
  - right. intros b (_ & _ & H'). auto.
Qed.
Lemma rule_fn : forall pt r a b, rule_says pt r a -> rule_says pt r b -> a = b.
Proof. intros pt r a b (<- & _) (<- & _). auto. Qed.

Lemma or_solid : forall x y, cok x -> cok y -> solid x -> solid (c_or A x y).
Proof using L.
  intros x y Kx Ky S z Kz.
  destruct (c_bool A y) eqn:E.
  - apply (l_bool _ _ _ _ _ _ _ _ _ L) in E as (pt & Sp & M); auto.
    eapply (l_safe_nonempty _ _ _ _ _ _ _ _ _ L); eauto.
    + apply (l_or_ok _ _ _ _ _ _ _ _ _ L); auto.
    + apply (l_or _ _ _ _ _ _ _ _ _ L); auto.
  - rewrite (l_or_empty_r _ _ _ _ _ _ _ _ _ L); auto. intros pt Sp M.
    assert (X : c_bool A y = true) by (apply (l_bool _ _ _ _ _ _ _ _ _ L); eauto). congruence.
Qed.
Lemma empty_solid : solid (c_empty A).
Proof using L. intros y K. apply (l_safe_fresh _ _ _ _ _ _ _ _ _ L); auto. Qed.

(** One step: subtract what two earlier verdict sets decided, then add to the third one. *)
Lemma sub2 : forall x a b pt, cok x -> cok a -> cok b -> csafe x a -> csafe (c_sub A x a) b -> space pt ->
  (cmem pt (c_sub A (c_sub A x a) b) <-> cmem pt x /\ ~ cmem pt a /\ ~ cmem pt b).
Proof using L.
  intros x a b pt Kx Ka Kb S1 S2 Sp.
  rewrite (l_sub _ _ _ _ _ _ _ _ _ L) by (auto; apply (l_sub_ok _ _ _ _ _ _ _ _ _ L); auto).
  rewrite (l_sub _ _ _ _ _ _ _ _ _ L) by auto. tauto.
Qed.
Lemma sub2_ok : forall x a b, cok x -> cok a -> cok b -> csafe x a -> csafe (c_sub A x a) b ->
  cok (c_sub A (c_sub A x a) b).
Proof using L. intros. apply (l_sub_ok _ _ _ _ _ _ _ _ _ L); auto. apply (l_sub_ok _ _ _ _ _ _ _ _ _ L); auto. Qed.

Lemma calico_props_snoc : forall rs r, calico_props A (rs ++ [r]) = calico_step A (calico_props A rs) r.
Proof. intros. unfold calico_props. rewrite fold_left_app. reflexivity. Qed.

Lemma calico_safe_prefix : forall rs r, calico_safe (rs ++ [r]) -> calico_safe rs.
Proof.
  intros rs r S pre q post al dn ps -> E. apply (S pre q (post ++ [r])); auto. rewrite <- app_assoc. auto.
Qed.

Lemma silent_dec_iff : forall {X} (says : X -> action -> Prop) l
  (dec : forall x, In x l -> (exists b, says x b) \/ (forall b, ~ says x b)),
  (exists a, first_says says l a) \/ silent says l.
Proof.
  intros X says l. induction l as [|x l IH]; intros dec; [right; intros y b []|].
  destruct (dec x) as [[b H]|H]; [simpl; auto| |].
  - left. exists b. exists [], x, l. split; [auto|]. split; [auto|]. intros y c [].
  - destruct IH as [(a & pre & z & post & -> & S & Q)|IH]; [intros y Hy; apply dec; simpl; auto| |].
    + left. exists a. exists (x :: pre), z, post. split; [auto|]. split; [auto|].
      intros y c [<-|Hy]; auto.
    + right. intros y b [<-|Hy]; auto.
Qed.

Lemma first_log : forall pt (rs : list rule), ~ first_says (rule_says pt) rs Log.
Proof. intros pt rs (pre & x & post & _ & (_ & H & _) & _). congruence. Qed.

(** The evaluation of a Calico rule list. *)
Lemma calico_props_spec : forall rs al dn ps, rules_ok rs -> calico_safe rs -> calico_props A rs = (al, dn, ps) ->
  (cok al /\ cok dn /\ cok ps) /\ (solid al /\ solid dn /\ solid ps) /\
  forall pt, space pt -> (cmem pt al <-> first_says (rule_says pt) rs Allow)
                      /\ (cmem pt dn <-> first_says (rule_says pt) rs Deny)
                      /\ (cmem pt ps <-> first_says (rule_says pt) rs Pass).
Proof using L.
  induction rs as [|r rs IH] using rev_ind; intros al dn ps K S E.
  - unfold calico_props in E. cbn [fold_left] in E. injection E as <- <- <-.
    pose proof (l_empty_ok _ _ _ _ _ _ _ _ _ L) as K0. split; [auto|]. split; [repeat split; apply empty_solid|].
    intros pt Sp. pose proof (l_empty _ _ _ _ _ _ _ _ _ L pt) as N.
    assert (Z : forall a, ~ first_says (rule_says pt) ([] : list rule) a).
    { intros a (pre & x & post & Ex & _). destruct pre; discriminate. }
    repeat split; intro H; exfalso; try (apply N; exact H); eapply Z; eauto.
  - rewrite calico_props_snoc in E. destruct (calico_props A rs) as [[al0 dn0] ps0] eqn:E0.
    assert (K0 : rules_ok rs) by (intros q Hq; apply K; apply in_or_app; auto).
    assert (Kr : cok (r_props r)) by (apply K; apply in_or_app; simpl; auto).
    destruct (IH al0 dn0 ps0 K0 (calico_safe_prefix _ _ S) eq_refl) as ((Ka & Kd & Kp) & (Sa & Sd & Sps) & M). clear IH.
    specialize (S rs r [] al0 dn0 ps0 eq_refl E0).
    assert (Dz : forall pt, space pt -> (silent (rule_says pt) rs <-> ~ cmem pt al0 /\ ~ cmem pt dn0 /\ ~ cmem pt ps0)).
    { intros pt Sp. destruct (M pt Sp) as (M1 & M2 & M3). split.
      - intros Q. rewrite M1, M2, M3. repeat split; intro F; eapply first_not_silent; eauto.
      - intros (N1 & N2 & N3). destruct (silent_dec_iff (rule_says pt) rs) as [[a F]|Q]; auto.
        + intros q Hq. apply rule_dec. auto.
        + exfalso. destruct a; [apply N1|apply N2|apply N3|]; try tauto. eapply first_log; eauto. }
    assert (Df : forall pt a b, first_says (rule_says pt) rs a -> first_says (rule_says pt) rs b -> a = b).
    { intros pt. apply first_fn. intros q a b. apply rule_fn. }
    destruct r as [act rsrc rdst props]; cbn [r_action r_props calico_step] in *.
    destruct act.
    + injection E as <- <- <-. destruct S as [S1 S2].
      pose proof (sub2_ok _ _ _ Kr Kd Kp S1 S2) as Ks.
      split; [split; [apply (l_or_ok _ _ _ _ _ _ _ _ _ L); auto|auto]|].
      split; [split; [apply or_solid; auto|auto]|].
      intros pt Sp. destruct (M pt Sp) as (M1 & M2 & M3). specialize (Dz pt Sp). specialize (Df pt).
      rewrite (l_or _ _ _ _ _ _ _ _ _ L), sub2, !first_snoc by auto. unfold rule_says at 2 4 6. cbn [r_action r_props].
      repeat split.
      * intros [H|(H & N2 & N3)]; [left; apply M1; auto|].
        destruct (l_dec _ _ _ _ _ _ _ _ _ L al0 pt Ka) as [H1|H1]; [left; apply M1; auto|].
        right. split; [apply Dz; auto|]. split; auto. split; [discriminate|auto].
      * intros [H|(H & _ & _ & H')]; [left; apply M1; auto|]. right. apply Dz in H. tauto.
      * intros H; left; apply M2; auto.
      * intros [H|(_ & H & _)]; [apply M2; auto|discriminate].
      * intros H; left; apply M3; auto.
      * intros [H|(_ & H & _)]; [apply M3; auto|discriminate].
    + injection E as <- <- <-. destruct S as [S1 S2].
      pose proof (sub2_ok _ _ _ Kr Ka Kp S1 S2) as Ks.
      split; [split; [auto|split; [apply (l_or_ok _ _ _ _ _ _ _ _ _ L); auto|auto]]|].
      split; [split; [auto|split; [apply or_solid; auto|auto]]|].
      intros pt Sp. destruct (M pt Sp) as (M1 & M2 & M3). specialize (Dz pt Sp). specialize (Df pt).
      rewrite (l_or _ _ _ _ _ _ _ _ _ L), sub2, !first_snoc by auto. unfold rule_says at 2 4 6. cbn [r_action r_props].
      repeat split.
      * intros H; left; apply M1; auto.
      * intros [H|(_ & H & _)]; [apply M1; auto|discriminate].
      * intros [H|(H & N2 & N3)]; [left; apply M2; auto|].
        destruct (l_dec _ _ _ _ _ _ _ _ _ L dn0 pt Kd) as [H1|H1]; [left; apply M2; auto|].
        right. split; [apply Dz; auto|]. split; auto. split; [discriminate|auto].
      * intros [H|(H & _ & _ & H')]; [left; apply M2; auto|]. right. apply Dz in H. tauto.
      * intros H; left; apply M3; auto.
      * intros [H|(_ & H & _)]; [apply M3; auto|discriminate].
    + injection E as <- <- <-. destruct S as [S1 S2].
      pose proof (sub2_ok _ _ _ Kr Ka Kd S1 S2) as Ks.
      split; [split; [auto|split; [auto|apply (l_or_ok _ _ _ _ _ _ _ _ _ L); auto]]|].
      split; [split; [auto|split; [auto|apply or_solid; auto]]|].
      intros pt Sp. destruct (M pt Sp) as (M1 & M2 & M3). specialize (Dz pt Sp). specialize (Df pt).
      rewrite (l_or _ _ _ _ _ _ _ _ _ L), sub2, !first_snoc by auto. unfold rule_says at 2 4 6. cbn [r_action r_props].
      repeat split.
      * intros H; left; apply M1; auto.
      * intros [H|(_ & H & _)]; [apply M1; auto|discriminate].
      * intros H; left; apply M2; auto.
      * intros [H|(_ & H & _)]; [apply M2; auto|discriminate].
      * intros [H|(H & N2 & N3)]; [left; apply M3; auto|].
        destruct (l_dec _ _ _ _ _ _ _ _ _ L ps0 pt Kp) as [H1|H1]; [left; apply M3; auto|].
        right. split; [apply Dz; auto|]. split; auto. split; [discriminate|auto].
      * intros [H|(H & _ & _ & H')]; [left; apply M3; auto|]. right. apply Dz in H. tauto.
    + injection E as <- <- <-. split; [auto|]. split; [auto|]. intros pt Sp. destruct (M pt Sp) as (M1 & M2 & M3).
      rewrite !first_snoc. unfold rule_says at 2 4 6. cbn [r_action r_props].
      repeat split; try (intros H; left; tauto); (intros [H|(_ & H & _)]; [tauto|discriminate]).
Qed.

(** Without Pass rules every subtraction is well behaved. *)
Lemma calico_no_pass_empty : forall rs, (forall r, In r rs -> r_action r <> Pass) -> snd (calico_props A rs) = c_empty A.
Proof.
  induction rs as [|r rs IH] using rev_ind; intros H; [reflexivity|]. rewrite calico_props_snoc.
  assert (E : snd (calico_props A rs) = c_empty A) by (apply IH; intros q Hq; apply H; apply in_or_app; auto).
  destruct (calico_props A rs) as [[al dn] ps]. cbn [snd] in E. subst ps.
  assert (N : r_action r <> Pass) by (apply H; apply in_or_app; simpl; auto).
  unfold calico_step. destruct (r_action r); try reflexivity. congruence.
Qed.

Lemma empty_none : forall pt, space pt -> ~ cmem pt (c_empty A).
Proof using L. intros pt _. apply (l_empty _ _ _ _ _ _ _ _ _ L). Qed.

Lemma calico_no_pass_safe : forall rs, rules_ok rs -> rules_solid rs -> (forall r, In r rs -> r_action r <> Pass) -> calico_safe rs.
Proof using L.
  induction rs as [|r rs IH] using rev_ind; intros K So NP pre q post al dn ps E Ep.
  - destruct pre; discriminate.
  - assert (IHs : calico_safe rs).
    { apply IH; intros x Hx; [apply K|apply So|apply NP]; apply in_or_app; auto. }
    destruct post as [|z post _] using rev_ind.
    + apply app_inj_tail in E as [<- <-].
      assert (Kq : cok (r_props r)) by (apply K; apply in_or_app; simpl; auto).
      assert (Sq : solid (r_props r)) by (apply So; apply in_or_app; simpl; auto).
      assert (Nq : r_action r <> Pass) by (apply NP; apply in_or_app; simpl; auto).
      destruct (calico_props_spec rs al dn ps) as ((Ka & Kd & Kp) & _ & _); auto.
      { intros x Hx; apply K; apply in_or_app; auto. }
      assert (Ee : ps = c_empty A).
      { pose proof (calico_no_pass_empty rs) as X. rewrite Ep in X. apply X. intros x Hx; apply NP; apply in_or_app; auto. }
      subst ps. destruct (r_action r); [| |congruence|exact I].
      * split; [apply Sq; auto|]. apply (l_safe_right_empty _ _ _ _ _ _ _ _ _ L); auto.
        -- apply (l_sub_ok _ _ _ _ _ _ _ _ _ L); auto.
        -- apply empty_none.
      * split; [apply Sq; auto|]. apply (l_safe_right_empty _ _ _ _ _ _ _ _ _ L); auto.
        -- apply (l_sub_ok _ _ _ _ _ _ _ _ _ L); auto.
        -- apply empty_none.
    + rewrite app_comm_cons, app_assoc in E. apply app_inj_tail in E as [E _]. eapply IHs; eauto.
Qed.

Lemma union_props_spec : forall rs, rules_ok rs ->
  cok (union_props A rs) /\ solid (union_props A rs) /\
  forall pt, space pt -> (cmem pt (union_props A rs) <-> exists r, In r rs /\ cmem pt (r_props r)).
Proof using L.
  induction rs as [|r rs IH] using rev_ind; intros K.
  - split; [apply (l_empty_ok _ _ _ _ _ _ _ _ _ L)|]. split; [apply empty_solid|].
    intros pt Sp. split; [intro H; exfalso; revert H; apply empty_none; auto|intros (r & [] & _)].
  - destruct IH as (I1 & I2 & I3); [intros q Hq; apply K; apply in_or_app; auto|].
    assert (Kr : cok (r_props r)) by (apply K; apply in_or_app; simpl; auto).
    unfold union_props in *. rewrite fold_left_app. cbn [fold_left].
    split; [apply (l_or_ok _ _ _ _ _ _ _ _ _ L); auto|]. split; [apply or_solid; auto|].
    intros pt Sp. rewrite (l_or _ _ _ _ _ _ _ _ _ L), I3 by auto. split.
    + intros [(q & Hq & M)|M]; [exists q|exists r]; (split; [apply in_or_app; simpl; auto|auto]).
    + intros (q & Hq & M). apply in_app_or in Hq as [Hq|[<-|[]]]; eauto.
Qed.

(** ** Single policies *)
(** What a policy says about a connection, in one direction. *)
Definition policy_says (ingress : bool) (pt : Pt) (p : policy) (a : action) : Prop :=
  let rs := if ingress then p_ingress p else p_egress p in
  let matches := exists r, In r rs /\ cmem pt (r_props r) in
  match class_of (p_kind p) with
  | CK8s => a = Allow /\ matches
  | CCalico => first_says (rule_says pt) rs a
  | CIstioAP => ingress = true /\ a = p_action p /\ (a = Allow \/ a = Deny) /\ matches
  | CSidecar => a = Allow /\ (ingress = true \/ matches)
  | CGateway => a = p_action p /\ (a = Allow \/ a = Deny) /\ matches
  | CBase => False
  end.
Definition policy_ok (p : policy) : Prop :=
  rules_ok (p_ingress p) /\ rules_ok (p_egress p) /\ pok reg (p_selected p).
Definition policy_safe (ingress : bool) (p : policy) : Prop :=
  class_of (p_kind p) = CCalico -> calico_safe (if ingress then p_ingress p else p_egress p).
(** No Pass rules, and the rules' connection sets are non-empty or plain empty objects. *)
Definition no_pass (p : policy) : Prop :=
  class_of (p_kind p) = CCalico -> forall r, In r (p_ingress p ++ p_egress p) -> r_action r <> Pass /\ solid (r_props r).

Lemma rules_dec : forall rs pt, rules_ok rs ->
  (exists r : rule, In r rs /\ cmem pt (r_props r)) \/ ~ exists r : rule, In r rs /\ cmem pt (r_props r).
Proof using L.
  induction rs as [|r rs IH]; intros pt K; [right; intros (r & [] & _)|].
  destruct (l_dec _ _ _ _ _ _ _ _ _ L (r_props r) pt) as [H|H]; [apply K; simpl; auto|left; exists r; simpl; auto|].
  destruct (IH pt) as [(q & Hq & M)|N]; [intros q Hq; apply K; simpl; auto|left; exists q; simpl; auto|].
  right. intros (q & [<-|Hq] & M); auto. apply N; eauto.
Qed.

Lemma policy_dec : forall ing pt p, policy_ok p ->
  (exists b, policy_says ing pt p b) \/ (forall b, ~ policy_says ing pt p b).
Proof using L.
  intros ing pt p (K1 & K2 & _). unfold policy_says. cbv zeta.
  assert (K : rules_ok (if ing then p_ingress p else p_egress p)) by (destruct ing; auto).
  destruct (rules_dec _ pt K) as [M|M]; destruct (class_of (p_kind p)).
  - left; exists Allow; auto.
  - destruct (silent_dec_iff (rule_says pt) (if ing then p_ingress p else p_egress p)) as [H|H]; [|left; auto|].
    + intros q Hq. apply rule_dec; auto.
    + right. intros b F. eapply first_not_silent; eauto.
  - destruct ing; [|right; intros b [F _]; discriminate].
    destruct (p_action p) eqn:E; [left; exists Allow; auto|left; exists Deny; auto| |]; right; intros b (_ & -> & [F|F] & _); discriminate.
  - left; exists Allow; auto.
  - destruct (p_action p) eqn:E; [left; exists Allow; auto|left; exists Deny; auto| |]; right; intros b (-> & [F|F] & _); discriminate.
  - right. intros b [].
  - right. intros b [_ F]. auto.
  - destruct (silent_dec_iff (rule_says pt) (if ing then p_ingress p else p_egress p)) as [H|H]; [|left; auto|].
    + intros q Hq. apply rule_dec; auto.
    + right. intros b F. eapply first_not_silent; eauto.
  - right. intros b (_ & _ & _ & F). auto.
  - destruct ing; [left; exists Allow; auto|]. right. intros b [_ [F|F]]; [discriminate|auto].
  - right. intros b (_ & _ & F). auto.
  - right. intros b [].
Qed.
Lemma policy_fn : forall ing pt p a b, policy_says ing pt p a -> policy_says ing pt p b -> a = b.
Proof.
  intros ing pt p a b. unfold policy_says. cbv zeta. destruct (class_of (p_kind p)).
  - intros [-> _] [-> _]; auto.
  - apply first_fn. intros q x y. apply rule_fn.
  - intros (_ & -> & _) (_ & -> & _); auto.
  - intros [-> _] [-> _]; auto.
  - intros (-> & _) (-> & _); auto.
  - intros [].
Qed.
Lemma policy_log : forall ing pt p, ~ policy_says ing pt p Log.
Proof.
  intros ing pt p. unfold policy_says. cbv zeta. destruct (class_of (p_kind p)).
  - intros [H _]; discriminate.
  - apply first_log.
  - intros (_ & _ & [H|H] & _); discriminate.
  - intros [H _]; discriminate.
  - intros (_ & [H|H] & _); discriminate.
  - intros [].
Qed.

Lemma policy_conns_spec : forall ing p, policy_ok p -> policy_safe ing p ->
  let pc := policy_conns A p ing in
  captured pc = policy_captured p ing /\ all_allowed pc = c_empty A /\
  (cok (allowed pc) /\ cok (denied pc) /\ cok (passed pc)) /\
  (solid (allowed pc) /\ solid (denied pc) /\ solid (passed pc)) /\
  (forall pt, space pt -> (cmem pt (allowed pc) <-> policy_says ing pt p Allow)
                       /\ (cmem pt (denied pc) <-> policy_says ing pt p Deny)
                       /\ (cmem pt (passed pc) <-> policy_says ing pt p Pass)).
Proof using L.
  intros ing p (K1 & K2 & K3) S. cbv zeta. unfold policy_conns, sync_props, policy_says, policy_safe in *. cbv zeta.
  set (rs := if ing then p_ingress p else p_egress p) in *.
  assert (K : rules_ok rs) by (unfold rs; destruct ing; auto).
  destruct (union_props_spec rs K) as (U1 & U2 & U3).
  pose proof (l_empty_ok _ _ _ _ _ _ _ _ _ L) as E1. pose proof empty_solid as E2. pose proof empty_none as E3.
  assert (E4 : forall pt, space pt -> (cmem pt (c_empty A) <-> False)) by (intros pt Sp; specialize (E3 pt Sp); tauto).
  destruct (class_of (p_kind p)) eqn:EC.
  - cbn [captured allowed denied passed all_allowed]. do 4 (split; [auto|]).
    intros pt Sp. rewrite U3, E4 by auto. intuition discriminate.
  - destruct (calico_props A rs) as [[al dn] ps] eqn:Ep. cbn [captured allowed denied passed all_allowed].
    destruct (calico_props_spec rs al dn ps K (S eq_refl) Ep) as (X1 & X2 & X3). auto.
  - destruct ing; [destruct (p_action p)|]; cbn [captured allowed denied passed all_allowed];
      do 4 (split; [auto|]); intros pt Sp; rewrite ?U3, ?E4 by auto; intuition discriminate.
  - assert (R : cok (c_rect A None None None)) by (apply (l_rect_ok _ _ _ _ _ _ _ _ _ L); exact I).
    assert (R2 : solid (c_rect A None None None)).
    { intros y Ky. apply (l_safe_rect _ _ _ _ _ _ _ _ _ L); auto; exact I. }
    destruct ing; cbn [captured allowed denied passed all_allowed];
      do 4 (split; [auto|]); intros pt Sp; rewrite ?U3, ?E4 by auto.
    + rewrite (l_rect _ _ _ _ _ _ _ _ _ L) by (cbn; auto). cbn [opt]. intuition discriminate.
    + intuition discriminate.
  - destruct (p_action p); cbn [captured allowed denied passed all_allowed];
      do 4 (split; [auto|]); intros pt Sp; rewrite ?U3, ?E4 by auto; intuition discriminate.
  - cbn [captured allowed denied passed all_allowed]. do 4 (split; [auto|]).
    intros pt Sp. rewrite E4 by auto. tauto.
Qed.

Lemma no_pass_safe : forall ing p, policy_ok p -> no_pass p -> policy_safe ing p.
Proof using L.
  intros ing p (K1 & K2 & K3) N E. specialize (N E). apply calico_no_pass_safe.
  - destruct ing; auto.
  - intros r Hr. apply N. apply in_or_app. destruct ing; auto.
  - intros r Hr. apply N. apply in_or_app. destruct ing; auto.
Qed.
Lemma no_pass_passed : forall ing p, no_pass p -> passed (policy_conns A p ing) = c_empty A.
Proof.
  intros ing p N. unfold policy_conns, sync_props. cbv zeta. destruct (class_of (p_kind p)) eqn:EC; try reflexivity.
  - specialize (N EC). pose proof (calico_no_pass_empty (if ing then p_ingress p else p_egress p)) as X.
    destruct (calico_props A _) as [[al dn] ps]. cbn [passed snd] in *. apply X.
    intros r Hr. apply N. apply in_or_app. destruct ing; auto.
  - destruct ing; [destruct (p_action p)|]; reflexivity.
  - destruct ing; reflexivity.
  - destruct (p_action p); reflexivity.
Qed.

(** ** Lists in which no rule is fully shadowed; empty components *)
Definition unshadowed (rs : list rule) : Prop := forall pre r post, rs = pre ++ r :: post -> r_action r <> Log ->
  exists pt, space pt /\ cmem pt (r_props r) /\ forall q, In q pre -> r_action q <> Log -> ~ cmem pt (r_props q).

Lemma not_first : forall pt (rs : list rule) a, (forall q, In q rs -> r_action q <> Log -> ~ cmem pt (r_props q)) -> ~ first_says (rule_says pt) rs a.
Proof using.
  intros pt rs a H (pre & x & post & E & (S1 & S2 & S3) & _). apply (H x); auto; [|congruence].
  rewrite E. apply in_or_app. simpl. auto.
Qed.

Lemma unshadowed_safe : forall rs, rules_ok rs -> unshadowed rs -> calico_safe rs.
Proof using L.
  induction rs as [|r rs IH] using rev_ind; intros K U pre q post al dn ps E Ep.
  - destruct pre; discriminate.
  - assert (Kr : rules_ok rs) by (intros x Hx; apply K; apply in_or_app; auto).
    assert (IHs : calico_safe rs).
    { apply IH; auto. intros p1 r1 p2 E1. apply (U p1 r1 (p2 ++ [r])). rewrite E1, <- app_assoc. reflexivity. }
    destruct post as [|z post _] using rev_ind.
    + apply app_inj_tail in E as [<- <-].
      destruct (calico_props_spec rs al dn ps Kr IHs Ep) as ((Ka & Kd & Kp) & _ & M).
      assert (Kx : cok (r_props r)) by (apply K; apply in_or_app; simpl; auto).
      assert (G : r_action r <> Log -> forall x y, cok x -> cok y -> (x = al \/ x = dn \/ x = ps) -> csafe (r_props r) x /\ csafe (c_sub A (r_props r) x) y).
      { intros NL x y Cx Cy Hx. destruct (U rs r [] eq_refl NL) as (pt & Sp & Mr & N).
        assert (S1 : csafe (r_props r) x) by (apply (l_safe_nonempty _ _ _ _ _ _ _ _ _ L _ _ pt); auto).
        split; auto. apply (l_safe_nonempty _ _ _ _ _ _ _ _ _ L _ _ pt); auto; [apply (l_sub_ok _ _ _ _ _ _ _ _ _ L); auto|].
        apply (l_sub _ _ _ _ _ _ _ _ _ L); auto. split; auto. destruct (M pt Sp) as (M1 & M2 & M3).
        destruct Hx as [->|[->| ->]]; [rewrite M1|rewrite M2|rewrite M3]; apply not_first; auto. }
      destruct (r_action r) eqn:Ea; auto; apply G; auto; discriminate.
    + rewrite app_comm_cons, app_assoc in E. apply app_inj_tail in E as [-> _]. apply (IHs pre q post al dn ps); auto.
Qed.

Lemma union_empty : forall rs, rules_ok rs -> (forall pt, space pt -> ~ exists r, In r rs /\ cmem pt (r_props r)) -> union_props A rs = c_empty A.
Proof using L.
  induction rs as [|r rs IH] using rev_ind; intros K N; [reflexivity|]. unfold union_props in *. rewrite fold_left_app. cbn [fold_left].
  rewrite IH.
  - apply (l_or_empty_r _ _ _ _ _ _ _ _ _ L); [apply (l_empty_ok _ _ _ _ _ _ _ _ _ L)|apply K; apply in_or_app; simpl; auto|].
    intros pt Sp M. apply (N pt Sp). exists r. split; auto. apply in_or_app. simpl; auto.
  - intros x Hx. apply K. apply in_or_app; auto.
  - intros pt Sp (q & Hq & M). apply (N pt Sp). exists q. split; auto. apply in_or_app; auto.
Qed.

Definition comp (a : action) (t : C * C * C) : C := match t, a with (x, _, _), Allow => x | (_, x, _), Deny => x | (_, _, x), Pass => x | _, Log => c_empty A end.
Lemma calico_empty : forall rs, rules_ok rs -> calico_safe rs -> forall a,
  (forall pt, space pt -> ~ first_says (rule_says pt) rs a) -> comp a (calico_props A rs) = c_empty A.
Proof using L.
  induction rs as [|r rs IH] using rev_ind; intros K S a N; [destruct a; reflexivity|].
  assert (Kr : rules_ok rs) by (intros x Hx; apply K; apply in_or_app; auto).
  pose proof (calico_safe_prefix _ _ S) as Sr.
  assert (Na : forall pt, space pt -> ~ first_says (rule_says pt) rs a).
  { intros pt Sp (pre & x & post & -> & H1 & H2). apply (N pt Sp). exists pre, x, (post ++ [r]). split; [rewrite <- app_assoc; reflexivity|auto]. }
  specialize (IH Kr Sr a Na).
  destruct (calico_props A (rs ++ [r])) as [[al' dn'] ps'] eqn:E'.
  destruct (calico_props_spec _ _ _ _ K S E') as (_ & _ & M').
  rewrite calico_props_snoc in E'. destruct (calico_props A rs) as [[al dn] ps] eqn:E.
  destruct (calico_props_spec _ _ _ _ Kr Sr E) as ((Ka & Kd & Kp) & _ & M).
  assert (Kx : cok (r_props r)) by (apply K; apply in_or_app; simpl; auto).
  pose proof (S rs r [] al dn ps eq_refl E) as S0.
  assert (P : forall x y, cok x -> cok y -> csafe (r_props r) x -> csafe (c_sub A (r_props r) x) y ->
     cok (c_sub A (c_sub A (r_props r) x) y)) by (intros; apply sub2_ok; auto).
  destruct a; [| | |reflexivity]; cbn [comp] in *; subst.
  all: destruct (r_action r) eqn:Ea; unfold calico_step in E'; rewrite Ea in E'; injection E' as <- <- <-; auto.
  all: destruct S0 as [S1 S2].
  all: apply (l_or_empty_r _ _ _ _ _ _ _ _ _ L); auto.
  all: intros pt Sp Hm; destruct (M' pt Sp) as (M1 & M2 & M3).
  - apply (N pt Sp). apply M1. apply (l_or _ _ _ _ _ _ _ _ _ L); auto.
  - apply (N pt Sp). apply M2. apply (l_or _ _ _ _ _ _ _ _ _ L); auto.
  - apply (N pt Sp). apply M3. apply (l_or _ _ _ _ _ _ _ _ _ L); auto.
Qed.

Definition pcomp (a : action) (r : pconns) : C := match a with Allow => allowed r | Deny => denied r | Pass => passed r | Log => c_empty A end.
Lemma policy_conns_empty : forall ing p, policy_ok p -> policy_safe ing p -> policy_captured p ing <> [] -> forall a,
  (forall pt, space pt -> ~ policy_says ing pt p a) -> pcomp a (policy_conns A p ing) = c_empty A.
Proof using L.
  intros ing p (K1 & K2 & K3) S Cp a. unfold policy_conns, sync_props, policy_says, policy_safe, policy_captured in *. cbv zeta.
  set (rs := if ing then p_ingress p else p_egress p) in *.
  assert (K : rules_ok rs) by (unfold rs; destruct ing; auto). pose proof (union_empty rs K) as U.
  destruct (class_of (p_kind p)) eqn:EC; intros N.
  - destruct a; auto. cbn [pcomp allowed]. apply U. intros pt Sp H. apply (N pt Sp). auto.
  - pose proof (calico_empty rs K (S eq_refl) a N) as X. destruct (calico_props A rs) as [[al dn] ps]. destruct a; auto.
  - destruct ing; [|destruct a; auto]. destruct (p_action p) eqn:Ea, a; auto; cbn [pcomp allowed denied]; apply U; intros pt Sp H; apply (N pt Sp); auto.
  - destruct ing; [congruence|]. destruct a; auto. cbn [pcomp allowed]. apply U. intros pt Sp H. apply (N pt Sp). auto.
  - destruct (p_action p) eqn:Ea, a; auto; cbn [pcomp allowed denied]; apply U; intros pt Sp H; apply (N pt Sp); auto.
  - destruct a; auto.
Qed.
End Facts.
