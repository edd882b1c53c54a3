(** * Facts about layers: combination of policies, defaults, and configurations. *)
From Coq Require Import ZArith List Bool Arith Lia String.
From Verif Require Import IntervalModel IntervalFacts PortProtoModel PeerModel PeerFacts PeerSetFacts PolicyModel PolicyLaws PolicyFacts.
Import ListNotations.
Local Open Scope nat_scope.

Section Layer.
Context {C Pt : Type} (A : cops C) (src dst : Pt -> point) (tcp : Pt -> bool) (space : Pt -> Prop)
        (cmem : Pt -> C -> Prop) (cok : C -> Prop) (csafe : C -> C -> Prop) (reg : list peer)
        (L : claws A src dst tcp space cmem cok csafe reg).
Notation rule := (@rule C). Notation policy := (@policy C).
Local Notation law f := (f _ _ _ _ _ _ _ _ _ L).
Local Notation says := (policy_says cmem).
Local Notation solid := (solid cok csafe).
Local Notation pol_ok := (policy_ok cok reg).
Local Notation pol_safe := (policy_safe A csafe).

(** A policy decides a connection when it captures some peer in this direction and has an opinion. *)
Definition decides (ing : bool) (pt : Pt) (p : policy) (a : action) : Prop :=
  policy_captured p ing <> [] /\ says ing pt p a.
(** The peers captured in one direction by the policies that satisfy [capf]. *)
Definition captured_by (capf : policy -> bool) (pols : list policy) (ing : bool) (x : point) : Prop :=
  exists p, In p pols /\ capf p = true /\ pt_in x (policy_captured p ing).
Definition policies_ok (ing : bool) (pols : list policy) : Prop := forall p, In p pols -> pol_ok p /\ pol_safe ing p.
(** The second subtractions of every round are well behaved. *)
Definition collect_safe (capf : policy -> bool) (ing : bool) (pols : list policy) : Prop := forall pre p post,
  pols = pre ++ p :: post -> policy_captured p ing <> [] ->
  let r := collect A capf pre ing in let pc := policy_conns A p ing in
  csafe (c_sub A (denied pc) (allowed r)) (passed r) /\ csafe (c_sub A (allowed pc) (denied r)) (passed r) /\
  csafe (c_sub A (passed pc) (denied r)) (allowed r).

Lemma decides_dec : forall ing pt p, pol_ok p -> (exists b, decides ing pt p b) \/ (forall b, ~ decides ing pt p b).
Proof using L.
  intros ing pt p K. unfold decides.
  destruct (policy_captured p ing) as [|q s]; [right; intros b [H _]; congruence|].
  destruct (policy_dec A src dst tcp space cmem cok csafe reg L ing pt p K) as [[b H]|H].
  - left. exists b. split; [discriminate|auto].
  - right. intros b [_ H']. eapply H; eauto.
Qed.
Lemma decides_fn : forall ing pt p a b, decides ing pt p a -> decides ing pt p b -> a = b.
Proof. intros ing pt p a b [_ H1] [_ H2]. eapply policy_fn; eauto. Qed.
Lemma decides_log : forall ing pt p, ~ decides ing pt p Log.
Proof. intros ing pt p [_ H]. eapply policy_log; eauto. Qed.
Lemma layer_log : forall ing pt ps, ~ first_says (decides ing pt) ps Log.
Proof. intros ing pt ps (pre & x & post & _ & H & _). eapply decides_log; eauto. Qed.

Lemma captured_ok : forall ing p, pol_ok p -> pok reg (policy_captured p ing).
Proof.
  intros ing p (_ & _ & K). unfold policy_captured. pose proof (pok_nil reg).
  destruct (class_of (p_kind p)), ing, (p_affects_in p), (p_affects_eg p); auto.
Qed.

Lemma collect_snoc : forall capf ing pols p, collect A capf (pols ++ [p]) ing = collect_step A capf ing (collect A capf pols ing) p.
Proof. intros. unfold collect. rewrite fold_left_app. reflexivity. Qed.

Lemma union_In : forall s t x, pt_in x (ps_union s t) <-> pt_in x s \/ pt_in x t.
Proof.
  intros s t [k n|y]; cbn [pt_in].
  - apply ps_union_In.
  - split.
    + intros (l & H & M). apply ps_union_In in H as [H|H]; eauto.
    + intros [(l & H & M)|(l & H & M)]; exists l; rewrite ps_union_In; auto.
Qed.

Definition safe3 (r pc : pconns) : Prop :=
  csafe (c_sub A (denied pc) (allowed r)) (passed r) /\ csafe (c_sub A (allowed pc) (denied r)) (passed r) /\
  csafe (c_sub A (passed pc) (denied r)) (allowed r).

Lemma collect_spec : forall capf ing pols, policies_ok ing pols -> collect_safe capf ing pols ->
  let r := collect A capf pols ing in
  pok reg (captured r) /\ (forall x, pt_in x (captured r) <-> captured_by capf pols ing x) /\
  all_allowed r = c_empty A /\ (cok (allowed r) /\ cok (denied r) /\ cok (passed r)) /\
  (solid (allowed r) /\ solid (denied r) /\ solid (passed r)) /\
  forall pt, space pt -> (cmem pt (allowed r) <-> first_says (decides ing pt) pols Allow)
                      /\ (cmem pt (denied r) <-> first_says (decides ing pt) pols Deny)
                      /\ (cmem pt (passed r) <-> first_says (decides ing pt) pols Pass).
Proof using L.
  intros capf ing. induction pols as [|p pols IH] using rev_ind; intros K S; cbv zeta.
  - unfold collect. cbn [fold_left pconns_empty captured allowed denied passed all_allowed].
    pose proof (law l_empty_ok). split; [apply pok_nil|]. split.
    { intros x. split; [intro F; exfalso; revert F; apply pbool_false; auto|intros (p & [] & _)]. }
    split; [auto|]. split; [auto|]. split; [repeat split; apply (empty_solid A src dst tcp space cmem cok csafe reg L)|].
    intros pt Sp. pose proof (law l_empty pt) as N.
    assert (Z : forall a, ~ first_says (decides ing pt) ([] : list policy) a).
    { intros a (pre & x & post & Ex & _). destruct pre; discriminate. }
    repeat split; intro F; exfalso; try (apply N; exact F); eapply Z; eauto.
  - assert (K0 : policies_ok ing pols) by (intros q Hq; apply K; apply in_or_app; auto).
    assert (Kp : pol_ok p /\ pol_safe ing p) by (apply K; apply in_or_app; simpl; auto).
    assert (S0 : collect_safe capf ing pols).
    { intros pre q post -> Cq. apply (S pre q (post ++ [p])); [rewrite <- app_assoc; auto|auto]. }
    specialize (IH K0 S0). cbv zeta in IH. rewrite collect_snoc. specialize (S pols p [] eq_refl). cbv zeta in S. fold (safe3 (collect A capf pols ing) (policy_conns A p ing)) in S.
    set (r := collect A capf pols ing) in *. clearbody r.
    destruct IH as (I1 & I2 & I3 & (Ia & Id & Ip) & (Sa & Sd & Ss) & M).
    destruct Kp as [Kp1 Kp2].
    destruct (policy_conns_spec A src dst tcp space cmem cok csafe reg L ing p Kp1 Kp2) as (P1 & P2 & (Pa & Pd & Pp) & (Qa & Qd & Qp) & PM).
    pose proof (captured_ok ing p Kp1) as Kc.
    unfold collect_step. rewrite P1. set (pc := policy_conns A p ing) in *. clearbody pc.
    destruct (policy_captured p ing) as [|q s] eqn:Ec.
    + cbn [pbool]. split; [auto|]. split.
      { intros x. rewrite I2. unfold captured_by. split.
        - intros (p' & H1 & H2). exists p'. rewrite in_app_iff. auto.
        - intros (p' & H1 & H2 & H3). apply in_app_or in H1 as [H1|[<-|[]]]; [eauto|].
          exfalso. rewrite Ec in H3. revert H3. apply pbool_false. auto. }
      split; [auto|]. split; [auto|]. split; [auto|].
      intros pt Sp. destruct (M pt Sp) as (M1 & M2 & M3). rewrite M1, M2, M3, !first_snoc.
      assert (Dn : forall a, ~ decides ing pt p a) by (intros a [F _]; congruence).
      pose proof (Dn Allow). pose proof (Dn Deny). pose proof (Dn Pass). tauto.
    + cbn [pbool]. rewrite <- Ec in *.
      assert (Cne : policy_captured p ing <> []) by (rewrite Ec; discriminate).
      destruct (S Cne) as (S1 & S2 & S3). clear S.
      assert (T1 : csafe (denied pc) (allowed r)) by auto.
      assert (T2 : csafe (allowed pc) (denied r)) by auto.
      assert (T3 : csafe (passed pc) (denied r)) by auto.
      pose proof (sub2_ok A src dst tcp space cmem cok csafe reg L) as SO.
      pose proof (sub2 A src dst tcp space cmem cok csafe reg L) as SM.
      pose proof (or_solid A src dst tcp space cmem cok csafe reg L) as OS.
      assert (O1 : cok (c_sub A (c_sub A (denied pc) (allowed r)) (passed r))) by (apply SO; auto).
      assert (O2 : cok (c_sub A (c_sub A (allowed pc) (denied r)) (passed r))) by (apply SO; auto).
      assert (O3 : cok (c_sub A (c_sub A (passed pc) (denied r)) (allowed r))) by (apply SO; auto).
      cbn [captured allowed denied passed all_allowed]. split.
      { destruct (capf p); auto. apply pok_union; auto. }
      split.
      { intros x. transitivity (pt_in x (captured r) \/ (capf p = true /\ pt_in x (policy_captured p ing))).
        - destruct (capf p); [rewrite union_In|]; intuition discriminate.
        - rewrite I2. unfold captured_by. split.
          + intros [(p' & H1 & H2)|[H1 H2]]; [exists p'|exists p]; rewrite in_app_iff; simpl; auto.
          + intros (p' & H1 & H2 & H3). apply in_app_or in H1 as [H1|[<-|[]]]; eauto. }
      split; [auto|].
      split; [repeat split; apply (law l_or_ok); auto|].
      split; [repeat split; apply OS; auto|].
      intros pt Sp. destruct (M pt Sp) as (M1 & M2 & M3). destruct (PM pt Sp) as (N1 & N2 & N3).
      assert (Dz : silent (decides ing pt) pols <-> ~ cmem pt (allowed r) /\ ~ cmem pt (denied r) /\ ~ cmem pt (passed r)).
      { split.
        - intros Q. rewrite M1, M2, M3. repeat split; intro F; eapply first_not_silent; eauto.
        - intros (F1 & F2 & F3). destruct (silent_dec_iff (decides ing pt) pols) as [[a F]|Q]; auto.
          + intros q' Hq'. apply decides_dec. apply K0; auto.
          + exfalso. destruct a; [apply F1|apply F2|apply F3|]; try tauto. eapply layer_log; eauto. }
      assert (Df : forall a b, first_says (decides ing pt) pols a -> first_says (decides ing pt) pols b -> a = b).
      { apply first_fn. intros p' a b. apply decides_fn. }
      assert (Dp : forall a, decides ing pt p a <-> says ing pt p a) by (intros a; unfold decides; tauto).
      rewrite !(law l_or) by auto. rewrite !SM by auto. rewrite !first_snoc, !Dp, <- N1, <- N2, <- N3, <- M1, <- M2, <- M3, Dz.
      pose proof (law l_dec (allowed r) pt Ia). pose proof (law l_dec (denied r) pt Id). pose proof (law l_dec (passed r) pt Ip).
      clear - H H0 H1. repeat match goal with |- context [cmem pt ?x] => let z := fresh in set (z := cmem pt x) in *; clearbody z end. tauto.
Qed.

(** Policies without Pass rules are combined exactly. *)
Lemma collect_no_pass : forall capf ing pols, (forall p, In p pols -> pol_ok p /\ no_pass cok csafe p) ->
  collect_safe capf ing pols /\ passed (collect A capf pols ing) = c_empty A.
Proof using L.
  intros capf ing. induction pols as [|p pols IH] using rev_ind; intros H.
  - split; [intros pre p post E; destruct pre; discriminate|reflexivity].
  - assert (H0 : forall q, In q pols -> pol_ok q /\ no_pass cok csafe q) by (intros q Hq; apply H; apply in_or_app; auto).
    destruct (H p) as [Hp Np]; [apply in_or_app; simpl; auto|].
    destruct (IH H0) as [I1 I2]. clear IH.
    assert (K0 : policies_ok ing pols).
    { intros q Hq. destruct (H0 q Hq). split; auto. eapply no_pass_safe; eauto. }
    destruct (collect_spec capf ing pols K0 I1) as (_ & _ & _ & (Ka & Kd & Kp) & _ & _).
    assert (Sf : pol_safe ing p) by (eapply no_pass_safe; eauto).
    destruct (policy_conns_spec A src dst tcp space cmem cok csafe reg L ing p Hp Sf) as (_ & _ & (Pa & Pd & Pp) & (Qa & Qd & Qp) & _).
    pose proof (no_pass_passed A cok csafe ing p Np) as Ep.
    pose proof (empty_none A src dst tcp space cmem cok csafe reg L) as EN.
    split.
    + intros pre q post E Cq. destruct post as [|z post _] using rev_ind.
      * apply app_inj_tail in E as [<- <-]. cbv zeta. rewrite I2, Ep. repeat split.
        -- apply (law l_safe_right_empty); auto. apply (law l_sub_ok); auto. apply (law l_empty_ok).
        -- apply (law l_safe_right_empty); auto. apply (law l_sub_ok); auto. apply (law l_empty_ok).
        -- rewrite (law l_sub_fresh) by auto. apply (law l_safe_fresh); auto.
      * rewrite app_comm_cons, app_assoc in E. apply app_inj_tail in E as [E _]. eapply I1; eauto.
    + rewrite collect_snoc. unfold collect_step. destruct (pbool _); auto. cbn [passed]. rewrite I2, Ep.
      rewrite !(law l_sub_fresh) by auto. apply (law l_or_empty_r); try apply (law l_empty_ok); auto.
Qed.

(** Policies none of whose verdicts are fully shadowed by earlier policies. *)
Definition pols_unshadowed (ing : bool) (pols : list policy) : Prop := forall pre p post,
  pols = pre ++ p :: post -> policy_captured p ing <> [] -> forall a,
  (exists pt, space pt /\ says ing pt p a /\ forall q b, In q pre -> ~ decides ing pt q b) \/
  (forall pt, space pt -> ~ says ing pt p a).
Lemma collect_unshadowed : forall capf ing pols, policies_ok ing pols -> pols_unshadowed ing pols -> collect_safe capf ing pols.
Proof using L.
  intros capf ing. induction pols as [|p pols IH] using rev_ind; intros K U pre q post E Cq; [destruct pre; discriminate|].
  assert (Kr : policies_ok ing pols) by (intros x Hx; apply K; apply in_or_app; auto).
  assert (IHs : collect_safe capf ing pols).
  { apply IH; auto. intros p1 r1 p2 E1. apply (U p1 r1 (p2 ++ [p])). rewrite E1, <- app_assoc. reflexivity. }
  destruct post as [|z post _] using rev_ind.
  - apply app_inj_tail in E as [<- <-]. cbv zeta.
    destruct (collect_spec capf ing pols Kr IHs) as (_ & _ & _ & (Ka & Kd & Kp) & _ & M).
    destruct (K p) as [Pk Ps]; [apply in_or_app; simpl; auto|].
    pose proof (policy_conns_spec A src dst tcp space cmem cok csafe reg L ing p Pk Ps) as (_ & _ & (Qa & Qd & Qp) & (Sa & Sd & Sp) & MP).
    pose proof (policy_conns_empty A src dst tcp space cmem cok csafe reg L ing p Pk Ps Cq) as EM.
    pose proof (law l_empty_ok) as E1. pose proof (empty_solid A src dst tcp space cmem cok csafe reg L) as E2.
    set (r := collect A capf pols ing) in *. set (pc := policy_conns A p ing) in *.
    assert (NV : forall pt a, (forall q b, In q pols -> ~ decides ing pt q b) -> ~ first_says (decides ing pt) pols a).
    { intros pt a H (l1 & x & l2 & E & D & _). apply (H x a); auto. rewrite E. apply in_or_app; simpl; auto. }
    assert (NM : forall pt x, space pt -> (x = allowed r \/ x = denied r \/ x = passed r) -> (forall q b, In q pols -> ~ decides ing pt q b) -> ~ cmem pt x).
    { intros pt x Sx H N. destruct (M pt Sx) as (M1 & M2 & M3). destruct H as [->|[->| ->]]; [rewrite M1|rewrite M2|rewrite M3]; auto. }
    assert (G : forall a x y, cok (pcomp A a pc) -> solid (pcomp A a pc) ->
       (forall pt, space pt -> (cmem pt (pcomp A a pc) <-> says ing pt p a)) ->
       cok x -> cok y -> (x = allowed r \/ x = denied r \/ x = passed r) -> csafe (c_sub A (pcomp A a pc) x) y).
    { intros a x y C1 S1 MM Cx Cy Hx. destruct (U pols p [] eq_refl Cq a) as [(pt & Spt & Sy & N)|N].
      - apply (law l_safe_nonempty _ _ pt); auto; [apply (law l_sub_ok); auto|].
        apply (law l_sub); auto. split; [apply MM; auto|]. apply NM; auto.
      - rewrite (EM a N). rewrite (law l_sub_fresh) by auto. apply E2; auto. }
    split; [|split].
    + apply (G Deny); auto. intros pt Spt. apply (MP pt Spt).
    + apply (G Allow); auto. intros pt Spt. apply (MP pt Spt).
    + apply (G Pass); auto. intros pt Spt. apply (MP pt Spt).
  - rewrite app_comm_cons, app_assoc in E. apply app_inj_tail in E as [-> _]. apply (IHs pre q post); auto.
Qed.

(** ** Layers *)
(** A difference is empty exactly when it looks empty. *)
Lemma psub_bool : forall s t, pok reg s -> pok reg t -> (pbool (psub s t) = true <-> exists x, pt_in x s /\ ~ pt_in x t).
Proof.
  intros s t Ks Kt. destruct (psub_spec reg s t Ks Kt) as [P1 P2].
  assert (B : forall l, In (Block l) (psub s t) -> exists y, mem y l).
  { intros l H. assert (Ip : ipset l) by (destruct P1 as [P1 _]; apply P1; auto). clear P1 P2.
    destruct Ks as [Ks _], Kt as [Kt _]. unfold psub in H.
    destruct (ps_diff_ok s t Ks Kt) as (r & Er & _). rewrite Er in H. unfold ps_diff in Er.
    destruct (ip_canonical_ok s Ks) as (a & Ea & Ha & Ma). destruct (ip_canonical_ok t Kt) as (b & Eb & Hb & Mb).
    rewrite Ea, Eb in Er. cbn [bind] in Er. injection Er as <-. apply ps_union_In in H as [H|H].
    - apply filter_In in H as [H _]. apply without_In in H as [_ H]. discriminate.
    - unfold block_peer_set in H. destruct (iset_bool (ipb_sub a b)) eqn:E; [|destruct H]. destruct H as [H|[]].
      injection H as H. rewrite H in E. destruct l as [|i l]; [discriminate|]. exists (lo i), i. split; [left; auto|].
      destruct Ip as [[Ip _] _]. lia. }
  destruct (psub s t) as [|[k n|l] q] eqn:E; cbn [pbool].
  - split; [discriminate|]. intros [x H]. apply P2 in H. exfalso. revert H. apply pbool_false. auto.
  - split; auto. intros _. exists (PN k n). apply P2. left. auto.
  - split; auto. intros _. destruct (B l) as [y Hy]; [left; auto|]. exists (PA y). apply P2. exists l. split; [left; auto|auto].
Qed.

Section WithPeers.
Context (ps : peerset) (HC : container reg ps).

(** The peers a connection can start from or end in. *)
Definition anywhere (x : point) : Prop := member ps x \/ is_addr x.
(** ... without DNS entries. *)
Definition anywhere_no_dns (x : point) : Prop := (member ps x /\ ~ named_dns x) \/ is_addr x.
Definition pod (x : point) : Prop := member ps x /\ ~ named_dns x.
Definition here (ing : bool) (pt : Pt) : point := if ing then dst pt else src pt.
Definition there (ing : bool) (pt : Pt) : point := if ing then src pt else dst pt.
Definition any_policy : policy -> bool := fun _ => true.

Local Notation verdict := (fun ing pt pols => first_says (decides ing pt) pols).

(** One direction of a K8s/Calico layer allows a connection explicitly ... *)
Definition k8s_explicit (pols : list policy) (ing : bool) (pt : Pt) : Prop :=
  verdict ing pt pols Allow \/
  (verdict ing pt pols Pass /\ member ps (here ing pt) /\ ~ named_hep (here ing pt) /\
   captured_by any_policy pols ing (here ing pt) /\ anywhere (there ing pt)).
(** ... or by default. *)
Definition k8s_default (pols : list policy) (ing : bool) (pt : Pt) : Prop :=
  member ps (here ing pt) /\ ~ named_hep (here ing pt) /\ ~ captured_by any_policy pols ing (here ing pt) /\
  anywhere (there ing pt).

Definition istio_default (pols : list policy) (ing : bool) (pt : Pt) : Prop :=
  (tcp pt = false /\ anywhere_no_dns (src pt) /\ anywhere_no_dns (dst pt)) \/
  (~ verdict ing pt pols Deny /\
   if ing then anywhere_no_dns (src pt) /\ ~ captured_by istio_capf pols ing (dst pt) /\
               (pod (dst pt) \/
                (tcp pt = true /\ member ps (dst pt) /\ named_dns (dst pt) /\
                 exists x, pod x /\ ~ captured_by istio_capf pols ing x))
   else pod (src pt) /\ ~ captured_by istio_capf pols ing (src pt) /\
        (anywhere_no_dns (dst pt) \/ (tcp pt = true /\ member ps (dst pt) /\ named_dns (dst pt)))).

Definition layer_ok (n : lname) (ing : bool) (pols : list policy) : Prop :=
  policies_ok ing pols /\
  collect_safe (match n with LK8sCalico | LK8sGateway => any_policy | _ => istio_capf end) ing pols.

Definition dir_explicit (n : lname) (pols : list policy) (ing : bool) (pt : Pt) : Prop :=
  match n with LK8sCalico | LK8sGateway => k8s_explicit pols ing pt | _ => verdict ing pt pols Allow end.
Definition dir_default (n : lname) (pols : list policy) (ing : bool) (pt : Pt) : Prop :=
  match n with LK8sCalico | LK8sGateway => k8s_default pols ing pt | _ => istio_default pols ing pt end.

Lemma rect_dir_spec : forall ing r l, pok reg r -> pok reg l ->
  cok (rect_dir A ing r l) /\
  forall pt, space pt -> (cmem pt (rect_dir A ing r l) <-> pt_in (there ing pt) r /\ pt_in (here ing pt) l).
Proof using L.
  intros ing r l K1 K2. unfold rect_dir, here, there. destruct ing.
  - split; [apply (law l_rect_ok); auto|]. intros pt Sp. rewrite (law l_rect) by auto. cbn [opt]. tauto.
  - split; [apply (law l_rect_ok); auto|]. intros pt Sp. rewrite (law l_rect) by auto. cbn [opt]. tauto.
Qed.

Lemma all_group : pok reg (peers_group ps true true) /\ forall x, pt_in x (peers_group ps true true) <-> anywhere x.
Proof using HC. destruct (peers_group_spec reg ps true true HC) as [G1 G2]. split; auto. intros x. rewrite G2. unfold anywhere. tauto. Qed.
Lemma nodns_group : pok reg (peers_group ps true false) /\ forall x, pt_in x (peers_group ps true false) <-> anywhere_no_dns x.
Proof using HC.
  destruct (peers_group_spec reg ps true false HC) as [G1 G2]. split; auto. intros x. rewrite G2. unfold anywhere_no_dns. intuition discriminate.
Qed.
Lemma pod_group : pok reg (peers_group ps false false) /\ forall x, pt_in x (peers_group ps false false) <-> pod x.
Proof using HC.
  destruct (peers_group_spec reg ps false false HC) as [G1 G2]. split; auto. intros x. rewrite G2. unfold pod. intuition discriminate.
Qed.

Lemma k8s_xgress_spec : forall pols f ing, policies_ok ing pols -> collect_safe any_policy ing pols ->
  let r := k8s_xgress A ps pols f ing in
  pok reg (captured r) /\ (forall x, pt_in x (captured r) <-> captured_by any_policy pols ing x) /\
  (cok (allowed r) /\ cok (denied r) /\ cok (all_allowed r)) /\
  forall pt, space pt ->
    (cmem pt (allowed r) <-> k8s_explicit pols ing pt) /\
    (cmem pt (denied r) <-> verdict ing pt pols Deny) /\
    (f_all f = true -> (cmem pt (all_allowed r) <-> k8s_explicit pols ing pt \/ k8s_default pols ing pt)).
Proof using L HC.
  intros pols f ing K S. cbv zeta. unfold k8s_xgress. cbv zeta.
  change (fun _ : policy => true) with any_policy.
  destruct (collect_spec any_policy ing pols K S) as (R1 & R2 & R3 & (Ra & Rd & Rp) & _ & M). rewrite R3. clear R3.
  set (r := collect A any_policy pols ing) in *. clearbody r.
  destruct all_group as [G1 G2]. destruct (no_hep_spec reg ps HC) as [B1 B2].
  set (base := filter (fun p => negb (is_hep p)) (peers_group ps false true)) in *. clearbody base.
  set (all := peers_group ps true true) in *. clearbody all.
  destruct (psub_spec reg base (captured r) B1 R1) as [N1 N2].
  destruct (pinter_spec reg base (captured r) B1 R1) as [P1 P2].
  set (nc := psub base (captured r)) in *. clearbody nc. set (cp := pinter base (captured r)) in *. clearbody cp.
  destruct (rect_dir_spec ing all nc G1 N1) as [X1 X2]. destruct (rect_dir_spec ing all cp G1 P1) as [Y1 Y2].
  cbn [captured allowed denied passed all_allowed].
  set (al := if pbool cp && c_bool A (passed r) then c_or A (allowed r) (c_and A (passed r) (rect_dir A ing all cp)) else allowed r).
  assert (AL : cok al /\ forall pt, space pt -> (cmem pt al <-> k8s_explicit pols ing pt)).
  { assert (Kc : cok (c_and A (passed r) (rect_dir A ing all cp))) by (apply (law l_and_ok); auto).
    unfold al. destruct (pbool cp && c_bool A (passed r)) eqn:E.
    - split; [apply (law l_or_ok); auto|]. intros pt Sp. destruct (M pt Sp) as (M1 & M2 & M3).
      rewrite (law l_or), (law l_and), Y2, M1, M3, G2, P2, B2, R2 by auto. unfold k8s_explicit. tauto.
    - split; auto. intros pt Sp. destruct (M pt Sp) as (M1 & M2 & M3). rewrite M1. unfold k8s_explicit.
      split; [auto|]. intros [H|(H1 & H2 & H3 & H4 & H5)]; auto. exfalso.
      apply andb_false_iff in E as [E|E].
      + apply (pbool_false _ (here ing pt)) in E. apply E. rewrite P2, B2, R2. auto.
      + assert (X : c_bool A (passed r) = true) by (apply (law l_bool); auto; exists pt; split; auto; apply M3; auto). congruence. }
  clearbody al. destruct AL as [AL1 AL2].
  set (aa := if pbool nc && f_all f then c_or A (c_empty A) (rect_dir A ing all nc) else c_empty A).
  assert (AA : cok aa /\ (f_all f = true -> forall pt, space pt -> (cmem pt aa <-> k8s_default pols ing pt))).
  { pose proof (law l_empty_ok) as K0. unfold aa. destruct (pbool nc && f_all f) eqn:E.
    - split; [apply (law l_or_ok); auto|]. intros F pt Sp. rewrite (law l_or), X2, G2, N2, B2, R2 by auto.
      pose proof (law l_empty pt). unfold k8s_default. tauto.
    - split; auto. intros F pt Sp. rewrite F, andb_true_r in E. pose proof (law l_empty pt). unfold k8s_default. split; [tauto|].
      intros (H1 & H2 & H3 & H4). exfalso. apply (pbool_false _ (here ing pt)) in E. apply E. rewrite N2, B2, R2. auto. }
  clearbody aa. destruct AA as [AA1 AA2].
  split; auto. split; auto. split.
  { split; [auto|]. split; [auto|]. destruct (f_all f); auto. apply (law l_or_ok); auto. }
  intros pt Sp. destruct (M pt Sp) as (M1 & M2 & M3). split; auto. split; auto.
  intros F. rewrite F. rewrite (law l_or), AL2, AA2 by auto. tauto.
Qed.

Lemma istio_xgress_spec : forall pols f ing, policies_ok ing pols -> collect_safe istio_capf ing pols ->
  let r := istio_xgress A ps pols f ing in
  pok reg (captured r) /\ (forall x, pt_in x (captured r) <-> captured_by istio_capf pols ing x) /\
  (cok (allowed r) /\ cok (denied r) /\ cok (all_allowed r)) /\
  forall pt, space pt ->
    (cmem pt (allowed r) <-> verdict ing pt pols Allow) /\
    (cmem pt (denied r) <-> verdict ing pt pols Deny) /\
    (f_all f = true -> (cmem pt (all_allowed r) <-> verdict ing pt pols Allow \/ istio_default pols ing pt)).
Proof using L HC.
  intros pols f ing K S. cbv zeta. unfold istio_xgress. cbv zeta.
  destruct (collect_spec istio_capf ing pols K S) as (R1 & R2 & R3 & (Ra & Rd & Rp) & _ & M).
  pose proof (law l_empty_ok) as K0.
  destruct (f_all f); cbn [negb].
  2:{ split; auto. split; auto. split; [split; auto; split; auto; rewrite R3; auto|].
      intros pt Sp. destruct (M pt Sp) as (M1 & M2 & M3). split; auto. split; auto. discriminate. }
  cbn [captured allowed denied passed all_allowed]. rewrite R3. clear R3.
  set (r := collect A istio_capf pols ing) in *. clearbody r.
  destruct nodns_group as [G1 G2]. destruct pod_group as [P1 P2]. destruct (all_dns_spec reg ps HC) as [D1 D2].
  set (all := peers_group ps true false) in *. clearbody all.
  set (pods := peers_group ps false false) in *. clearbody pods.
  set (dns := all_dns ps) in *. clearbody dns.
  destruct (psub_spec reg pods (captured r) P1 R1) as [N1 N2]. destruct (psub_spec reg dns (captured r) D1 R1) as [E1 E2].
  pose proof (psub_bool pods (captured r) P1 R1) as NB.
  set (nc := psub pods (captured r)) in *. clearbody nc. set (ncd := psub dns (captured r)) in *. clearbody ncd.
  assert (S0 : forall s d pr, opt (pok reg) s -> opt (pok reg) d -> solid (c_rect A s d pr)).
  { intros s d pr H1 H2 y Ky. apply (law l_safe_rect); auto. }
  assert (Q0 : cok (c_rect A (Some all) (Some all) (Some false))) by (apply (law l_rect_ok); auto).
  set (aa := c_or A (c_empty A) (c_or A (allowed r) (c_rect A (Some all) (Some all) (Some false)))).
  assert (AA : cok aa /\ forall pt, space pt -> (cmem pt aa <-> verdict ing pt pols Allow \/
             (tcp pt = false /\ anywhere_no_dns (src pt) /\ anywhere_no_dns (dst pt)))).
  { assert (cok (c_or A (allowed r) (c_rect A (Some all) (Some all) (Some false)))) by (apply (law l_or_ok); auto).
    unfold aa. split; [apply (law l_or_ok); auto|]. intros pt Sp. destruct (M pt Sp) as (M1 & M2 & M3).
    rewrite !(law l_or), (law l_rect), M1 by (auto; cbn [opt]; auto). cbn [opt]. rewrite !G2. pose proof (law l_empty pt). tauto. }
  clearbody aa. destruct AA as [AA1 AA2].
  destruct (pbool nc) eqn:Enc.
  2:{ split; auto. split; auto. split; auto. intros pt Sp. destruct (M pt Sp) as (M1 & M2 & M3). split; auto. split; auto.
      intros _. rewrite AA2 by auto. unfold istio_default.
      assert (Z : forall x, pod x -> ~ captured_by istio_capf pols ing x -> False).
      { intros x H1 H2. assert (X : false = true); [|discriminate]. apply NB. exists x. rewrite P2, R2. auto. }
      split; [tauto|]. intros [H|[H|[_ H]]]; auto. exfalso. destruct ing.
      - destruct H as (H1 & H2 & [H3|(H3 & H4 & H5 & x & H6 & H7)]); eapply Z; eauto.
      - destruct H as (H1 & H2 & H3). eapply Z; eauto. }
  assert (Ex : exists x, pod x /\ ~ captured_by istio_capf pols ing x).
  { destruct NB as [NB _]. destruct (NB eq_refl) as (x & H1 & H2). exists x. rewrite <- P2, <- R2. auto. }
  assert (AN : forall x, pod x -> anywhere_no_dns x) by (intros x; unfold pod, anywhere_no_dns; auto).
  destruct ing.
  - assert (W0 : cok (c_rect A (Some all) (Some nc) None)) by (apply (law l_rect_ok); auto).
    assert (W1 : cok (c_sub A (c_rect A (Some all) (Some nc) None) (denied r))) by (apply (law l_sub_ok); auto; apply S0; auto).
    assert (W2 : cok (c_rect A (Some all) (Some ncd) (Some true))) by (apply (law l_rect_ok); auto).
    assert (W3 : cok (c_sub A (c_rect A (Some all) (Some ncd) (Some true)) (denied r))) by (apply (law l_sub_ok); auto; apply S0; auto).
    set (x := if pbool ncd then _ else _).
    assert (X : cok x /\ forall pt, space pt -> (cmem pt x <-> anywhere_no_dns (src pt) /\ ~ verdict true pt pols Deny /\
       ~ captured_by istio_capf pols true (dst pt) /\ (pod (dst pt) \/ (tcp pt = true /\ member ps (dst pt) /\ named_dns (dst pt))))).
    { unfold x. destruct (pbool ncd) eqn:En.
      - split; [apply (law l_or_ok); auto|]. intros pt Sp. destruct (M pt Sp) as (M1 & M2 & M3).
        rewrite (law l_or), !(law l_sub), !(law l_rect) by (auto; try apply S0; cbn [opt]; auto). cbn [opt].
        rewrite G2, N2, E2, P2, D2, R2, M2. intuition congruence.
      - split; auto. intros pt Sp. destruct (M pt Sp) as (M1 & M2 & M3).
        rewrite !(law l_sub), !(law l_rect) by (auto; try apply S0; cbn [opt]; auto). cbn [opt].
        rewrite G2, N2, P2, R2, M2. split; [tauto|]. intros (H1 & H2 & H3 & [H4|(H4 & H5 & H6)]); [tauto|].
        exfalso. apply (pbool_false _ (dst pt)) in En. apply En. rewrite E2, D2, R2. auto. }
    clearbody x. destruct X as [X1 X2].
    split; auto. split; auto. split; [split; auto; split; auto; apply (law l_or_ok); auto|].
    intros pt Sp. destruct (M pt Sp) as (M1 & M2 & M3). split; auto. split; auto. intros _.
    rewrite (law l_or), AA2, X2 by auto. unfold istio_default. clear - Ex. split.
    + intros [[H|H]|(H1 & H2 & H3 & [H4|(H4 & H5 & H6)])]; auto; right; right; split; auto; split; auto; split; auto.
    + intros [H|[H|(H1 & H2 & H3 & [H4|(H4 & H5 & H6 & H7)])]]; auto; right; split; auto; split; auto; split; auto.
  - assert (W0 : cok (c_rect A (Some nc) (Some all) None)) by (apply (law l_rect_ok); auto).
    assert (W1 : cok (c_rect A (Some nc) (Some dns) (Some true))) by (apply (law l_rect_ok); auto).
    assert (W2 : cok (c_or A (c_rect A (Some nc) (Some all) None) (c_rect A (Some nc) (Some dns) (Some true)))) by (apply (law l_or_ok); auto).
    assert (W3 : csafe (c_or A (c_rect A (Some nc) (Some all) None) (c_rect A (Some nc) (Some dns) (Some true))) (denied r)).
    { apply (or_solid A src dst tcp space cmem cok csafe reg L); auto. }
    assert (W4 : cok (c_sub A (c_or A (c_rect A (Some nc) (Some all) None) (c_rect A (Some nc) (Some dns) (Some true))) (denied r))) by (apply (law l_sub_ok); auto).
    split; auto. split; auto. split; [split; auto; split; auto; apply (law l_or_ok); auto|].
    intros pt Sp. destruct (M pt Sp) as (M1 & M2 & M3). split; auto. split; auto. intros _.
    rewrite (law l_or), AA2, (law l_sub), (law l_or), !(law l_rect) by (auto; cbn [opt]; auto). cbn [opt].
    rewrite N2, G2, D2, P2, R2, M2. unfold istio_default. intuition congruence.
Qed.

Lemma xgress_spec : forall n pols f ing, layer_ok n ing pols ->
  let r := xgress A n ps pols f ing in
  pok reg (captured r) /\
  (forall x, pt_in x (captured r) <-> captured_by (match n with LK8sCalico | LK8sGateway => any_policy | _ => istio_capf end) pols ing x) /\
  (cok (allowed r) /\ cok (denied r) /\ cok (all_allowed r)) /\
  forall pt, space pt ->
    (cmem pt (allowed r) <-> dir_explicit n pols ing pt) /\
    (cmem pt (denied r) <-> verdict ing pt pols Deny) /\
    (f_all f = true -> (cmem pt (all_allowed r) <-> dir_explicit n pols ing pt \/ dir_default n pols ing pt)).
Proof using L HC.
  intros n pols f ing [K S]. unfold xgress, dir_explicit, dir_default.
  destruct n; [apply k8s_xgress_spec|apply istio_xgress_spec|apply k8s_xgress_spec|apply istio_xgress_spec]; auto.
Qed.

(** What a layer allows. *)
Definition layer_in (n : lname) (pols : list policy) (pt : Pt) : Prop :=
  dir_explicit n pols true pt \/ dir_default n pols true pt \/ (pod (src pt) /\ is_addr (dst pt)).
Definition layer_out (n : lname) (pols : list policy) (pt : Pt) : Prop :=
  dir_explicit n pols false pt \/ dir_default n pols false pt \/ (is_addr (src pt) /\ pod (dst pt)).
Definition layer_allows (n : lname) (pols : list policy) (pt : Pt) : Prop := layer_in n pols pt /\ layer_out n pols pt.
Definition layer_allows_explicitly (n : lname) (pols : list policy) (pt : Pt) : Prop :=
  (dir_explicit n pols true pt /\ layer_out n pols pt) \/ (dir_explicit n pols false pt /\ layer_in n pols pt).
Definition layer_denies (pols : list policy) (pt : Pt) : Prop := verdict true pt pols Deny \/ verdict false pt pols Deny.
Definition layer_captures (n : lname) (pols : list policy) (x : point) : Prop :=
  let capf := match n with LK8sCalico | LK8sGateway => any_policy | _ => istio_capf end in
  captured_by capf pols true x \/ captured_by capf pols false x.

Lemma layer_conns_spec : forall n pols f, layer_ok n true pols -> layer_ok n false pols -> (f_allowed f = true -> f_all f = true) ->
  let r := layer_conns A n ps pols f in
  pok reg (captured r) /\ (forall x, pt_in x (captured r) <-> layer_captures n pols x) /\
  (cok (allowed r) /\ cok (denied r) /\ cok (all_allowed r)) /\ passed r = c_empty A /\
  forall pt, space pt ->
    (cmem pt (allowed r) <-> f_allowed f = true /\ layer_allows_explicitly n pols pt) /\
    (cmem pt (denied r) <-> f_denied f = true /\ layer_denies pols pt) /\
    (cmem pt (all_allowed r) <-> f_all f = true /\ layer_allows n pols pt).
Proof using L HC.
  intros n pols f K1 K2 Hf. cbv zeta. unfold layer_conns. cbv zeta.
  destruct (xgress_spec n pols f true K1) as (I1 & I2 & (Ia & Id & Iall) & IM).
  destruct (xgress_spec n pols f false K2) as (E1 & E2 & (Ea & Ed & Eall) & EM).
  set (i := xgress A n ps pols f true) in *. clearbody i. set (e := xgress A n ps pols f false) in *. clearbody e.
  pose proof (law l_empty_ok) as K0.
  destruct pod_group as [P1 P2]. destruct (all_ips_set_spec reg) as [W1 W2].
  assert (X1 : cok (c_rect A (Some (peers_group ps false false)) (Some all_ips_set) None)) by (apply (law l_rect_ok); auto).
  assert (X2 : cok (c_rect A (Some all_ips_set) (Some (peers_group ps false false)) None)) by (apply (law l_rect_ok); auto).
  set (iall := if f_all f then c_or A (all_allowed i) _ else _).
  set (eall := if f_all f then c_or A (all_allowed e) _ else _).
  assert (Y1 : cok iall /\ (f_all f = true -> forall pt, space pt -> (cmem pt iall <-> layer_in n pols pt))).
  { unfold iall. destruct (f_all f); [|split; [auto|discriminate]]. split; [apply (law l_or_ok); auto|].
    intros _ pt Sp. destruct (IM pt Sp) as (_ & _ & M). rewrite (law l_or), M, (law l_rect) by (auto; cbn [opt]; auto).
    cbn [opt]. rewrite P2, W2. unfold layer_in. tauto. }
  assert (Y2 : cok eall /\ (f_all f = true -> forall pt, space pt -> (cmem pt eall <-> layer_out n pols pt))).
  { unfold eall. destruct (f_all f); [|split; [auto|discriminate]]. split; [apply (law l_or_ok); auto|].
    intros _ pt Sp. destruct (EM pt Sp) as (_ & _ & M). rewrite (law l_or), M, (law l_rect) by (auto; cbn [opt]; auto).
    cbn [opt]. rewrite P2, W2. unfold layer_out. tauto. }
  clearbody iall eall. destruct Y1 as [Y1 Y1']. destruct Y2 as [Y2 Y2'].
  cbn [captured allowed denied passed all_allowed].
  assert (Z1 : cok (c_and A (allowed i) eall)) by (apply (law l_and_ok); auto).
  assert (Z2 : cok (c_and A (allowed e) iall)) by (apply (law l_and_ok); auto).
  split; [apply pok_union; auto|]. split; [intros x; rewrite union_In, I2, E2; unfold layer_captures; tauto|].
  split.
  { split; [destruct (f_allowed f); auto; apply (law l_or_ok); auto|].
    split; [destruct (f_denied f); auto; apply (law l_or_ok); auto|]. destruct (f_all f); [apply (law l_and_ok); auto|auto]. }
  split; auto. intros pt Sp. destruct (IM pt Sp) as (IM1 & IM2 & _). destruct (EM pt Sp) as (EM1 & EM2 & _).
  pose proof (law l_empty pt) as N.
  split; [|split].
  - destruct (f_allowed f); [|intuition discriminate]. specialize (Y1' (Hf eq_refl)). specialize (Y2' (Hf eq_refl)).
    rewrite (law l_or), !(law l_and), IM1, EM1, Y1', Y2' by auto. unfold layer_allows_explicitly. tauto.
  - destruct (f_denied f); [|intuition discriminate]. rewrite (law l_or), IM2, EM2 by auto. unfold layer_denies. tauto.
  - destruct (f_all f); [|intuition discriminate]. rewrite (law l_and), Y1', Y2' by auto. unfold layer_allows. tauto.
Qed.

(** ** Configurations *)
Definition layers_ok (ls : @layers C) : Prop := forall n pols, In (n, pols) ls -> layer_ok n true pols /\ layer_ok n false pols.

Lemma layer_ok_nil : forall n ing, layer_ok n ing [].
Proof.
  intros n ing. split; [intros p []|]. intros pre p post E. destruct pre; discriminate.
Qed.

Lemma conn_hep_spec : cok (conn_hep A ps) /\
  forall pt, space pt -> (cmem pt (conn_hep A ps) <->
    (member ps (src pt) /\ named_hep (src pt)) \/ (member ps (dst pt) /\ named_hep (dst pt))).
Proof using L HC.
  destruct (host_eps_spec reg ps HC) as [H1 H2]. unfold conn_hep.
  assert (X1 : cok (c_rect A (Some (host_eps ps)) None None)) by (apply (law l_rect_ok); cbn; auto).
  assert (X2 : cok (c_rect A None (Some (host_eps ps)) None)) by (apply (law l_rect_ok); cbn; auto).
  split; [apply (law l_or_ok); auto|]. intros pt Sp. rewrite (law l_or), !(law l_rect) by (auto; cbn [opt]; auto). cbn [opt].
  rewrite !H2. tauto.
Qed.

Definition has_hep : Prop := exists x, member ps x /\ named_hep x.
Lemma host_eps_bool : pbool (host_eps ps) = true <-> has_hep.
Proof using HC.
  destruct (host_eps_spec reg ps HC) as [H1 H2]. unfold has_hep. split.
  - destruct (host_eps ps) as [|[k n|l] s] eqn:E; [discriminate| |]; intros _.
    + exists (PN k n). apply H2. left. auto.
    + exfalso. assert (X : In (Block l) (host_eps ps)) by (rewrite E; left; auto). unfold host_eps in X.
      apply filter_In in X as [_ X]. discriminate.
  - intros (x & H). apply H2 in H. destruct (host_eps ps); auto. exfalso. revert H. apply pbool_false. auto.
Qed.

(** The K8s/Calico layer is taken into account when there are host endpoints, even if no policy belongs to it. *)
Definition implicit_layer (ls : @layers C) : Prop := has_hep /\ lget ls LK8sCalico = None.

Lemma config_all_spec : forall ls, layers_ok ls ->
  let r := config_conns A ps ls only_all_allowed in
  cok (all_allowed r) /\
  forall pt, space pt -> (cmem pt (all_allowed r) <->
    (if pbool (host_eps ps) then match lget ls LK8sCalico with None => layer_allows LK8sCalico [] pt | _ => anywhere (src pt) /\ anywhere (dst pt) end
     else anywhere (src pt) /\ anywhere (dst pt)) /\
    forall n pols, In (n, pols) ls -> layer_allows n pols pt).
Proof using L HC.
  intros ls K. cbv zeta. unfold config_conns. cbn [all_allowed].
  destruct all_group as [G1 G2].
  assert (W : cok (c_rect A (Some (peers_group ps true true)) (Some (peers_group ps true true)) None)) by (apply (law l_rect_ok); auto).
  assert (W2 : forall pt, space pt -> (cmem pt (c_rect A (Some (peers_group ps true true)) (Some (peers_group ps true true)) None) <-> anywhere (src pt) /\ anywhere (dst pt))).
  { intros pt Sp. rewrite (law l_rect) by (auto; cbn [opt]; auto). cbn [opt]. rewrite !G2. tauto. }
  assert (ST : forall st, cok (all_allowed st) -> let r := fold_left (config_step A ps only_all_allowed) ls st in
     cok (all_allowed r) /\ forall pt, space pt -> (cmem pt (all_allowed r) <-> cmem pt (all_allowed st) /\ forall n pols, In (n, pols) ls -> layer_allows n pols pt)).
  { clear W W2. induction ls as [|[n pols] ls IH]; intros st Kst; cbv zeta.
    - cbn [fold_left]. split; auto. intros pt Sp. split; [intro H; split; [auto|intros n pols []]|tauto].
    - cbn [fold_left]. destruct (K n pols) as [K1 K2]; [left; auto|].
      destruct (layer_conns_spec n pols only_all_allowed K1 K2 (fun _ => eq_refl)) as (_ & _ & (_ & _ & X) & _ & M).
      set (st' := config_step A ps only_all_allowed st (n, pols)).
      assert (E : all_allowed st' = c_and A (all_allowed st) (all_allowed (layer_conns A n ps pols only_all_allowed))).
      { unfold st', config_step. cbn [fst snd all_allowed only_all_allowed mkfilter f_all orb]. destruct (lname_eqb n LK8sCalico); reflexivity. }
      destruct (IH (fun n' p' H => K n' p' (or_intror H)) st') as [I1 I2].
      { rewrite E. apply (law l_and_ok); auto. }
      split; auto. intros pt Sp. rewrite I2, E, (law l_and) by auto. destruct (M pt Sp) as (_ & _ & M3). rewrite M3. cbn [only_all_allowed mkfilter f_all orb]. split.
      + intros [[H1 [_ H2]] H3]. split; auto. intros n' p' [H|H]; auto. injection H as <- <-. auto.
      + intros [H1 H2]. split; [split; auto; split; auto; apply H2; left; auto|]. intros n' p' H. apply H2. right. auto. }
  destruct (layer_conns_spec LK8sCalico [] only_all_allowed (layer_ok_nil _ _) (layer_ok_nil _ _) (fun _ => eq_refl)) as (_ & _ & (_ & _ & X) & _ & M).
  unfold config_start. destruct (pbool (host_eps ps)); [destruct (lget ls LK8sCalico)|].
  - set (st := PConns _ _ _ _ _). destruct (ST st W) as [S1 S2]. split; auto. intros pt Sp. rewrite S2 by auto. cbn [st all_allowed only_all_allowed mkfilter f_all orb]. rewrite W2 by auto. tauto.
  - destruct (ST (by_filter (c_and A) (layer_conns A LK8sCalico ps [] only_all_allowed) (conn_hep A ps) (replace_no_all only_all_allowed)) X) as [S1 S2].
    split; auto. intros pt Sp. rewrite S2 by auto. cbn [by_filter all_allowed replace_no_all only_all_allowed mkfilter f_all f_allowed f_denied f_pass orb].
    destruct (M pt Sp) as (_ & _ & M3). cbn [only_all_allowed mkfilter f_all orb] in M3. rewrite M3. tauto.
  - set (st := PConns _ _ _ _ _). destruct (ST st W) as [S1 S2]. split; auto. intros pt Sp. rewrite S2 by auto. cbn [st all_allowed only_all_allowed mkfilter f_all orb]. rewrite W2 by auto. tauto.
Qed.

(** Without host endpoints: every filter. *)
Lemma config_nohep_spec : forall ls f, layers_ok ls -> ~ has_hep -> (f_allowed f = true -> f_all f = true) ->
  let r := config_conns A ps ls f in
  (cok (all_allowed r) /\ cok (allowed r) /\ cok (denied r)) /\ pok reg (captured r) /\
  (forall x, pt_in x (captured r) <-> exists n pols, In (n, pols) ls /\ layer_captures n pols x) /\
  forall pt, space pt ->
   (cmem pt (all_allowed r) <-> f_all f = true /\ anywhere (src pt) /\ anywhere (dst pt) /\ forall n pols, In (n, pols) ls -> layer_allows n pols pt) /\
   (cmem pt (allowed r) <-> f_allowed f = true /\ cmem pt (all_allowed r) /\ exists n pols, In (n, pols) ls /\ layer_allows_explicitly n pols pt) /\
   (cmem pt (denied r) <-> f_denied f = true /\ exists n pols, In (n, pols) ls /\ layer_denies pols pt).
Proof using L HC.
  intros ls f K NH Hf. cbv zeta. unfold config_conns. cbn [all_allowed allowed denied captured].
  destruct all_group as [G1 G2]. destruct conn_hep_spec as [H1 H2].
  assert (HE : forall pt, space pt -> ~ cmem pt (conn_hep A ps)).
  { intros pt Sp. rewrite H2 by auto. intros [[F1 F2]|[F1 F2]]; apply NH; eexists; eauto. }
  pose proof (law l_empty_ok) as K0.
  assert (SE : forall x, cok x -> c_sub A x (conn_hep A ps) = x) by (intros x Kx; apply (law l_sub_empty_r); auto).
  assert (ST : forall st, cok (all_allowed st) -> cok (allowed st) -> cok (denied st) -> pok reg (captured st) ->
     let r := fold_left (config_step A ps f) ls st in
     (cok (all_allowed r) /\ cok (allowed r) /\ cok (denied r)) /\ pok reg (captured r) /\
     (forall x, pt_in x (captured r) <-> pt_in x (captured st) \/ exists n pols, In (n, pols) ls /\ layer_captures n pols x) /\
     forall pt, space pt ->
      (f_all f = true -> (cmem pt (all_allowed r) <-> cmem pt (all_allowed st) /\ forall n pols, In (n, pols) ls -> layer_allows n pols pt)) /\
      (f_all f = false -> all_allowed r = all_allowed st) /\
      (cmem pt (allowed r) <-> cmem pt (allowed st) \/ (f_allowed f = true /\ exists n pols, In (n, pols) ls /\ layer_allows_explicitly n pols pt)) /\
      (cmem pt (denied r) <-> cmem pt (denied st) \/ (f_denied f = true /\ exists n pols, In (n, pols) ls /\ layer_denies pols pt))).
  { induction ls as [|[n pols] ls IH]; intros st Ka Kal Kd Kc; cbv zeta.
    - cbn [fold_left]. split; auto. split; auto. split; [intros x; split; [auto|intros [H|(n & pols & [] & _)]; auto]|].
      intros pt Sp. split; [intros _; split; [intro H; split; [auto|intros n pols []]|tauto]|]. split; auto.
      split; (split; [auto|intros [H|(_ & n & pols & [] & _)]; auto]).
    - cbn [fold_left]. destruct (K n pols) as [K1 K2]; [left; auto|].
      destruct (layer_conns_spec n pols f K1 K2 Hf) as (C1 & C2 & (X1 & X2 & X3) & X4 & M).
      set (st' := config_step A ps f st (n, pols)).
      set (lc := layer_conns A n ps pols f) in *.
      assert (E : st' = PConns (ps_union (captured st) (captured lc))
                  (if f_allowed f then c_or A (allowed st) (allowed lc) else allowed st)
                  (if f_denied f then c_or A (denied st) (denied lc) else denied st) (passed st)
                  (if f_all f then c_and A (all_allowed st) (all_allowed lc) else all_allowed st)).
      { unfold st', config_step. cbn [fst snd]. fold lc. destruct (lname_eqb n LK8sCalico); auto.
        unfold by_filter. cbn [captured allowed denied passed all_allowed]. rewrite !SE by (auto; rewrite X4; auto).
        repeat match goal with |- context [if ?b then ?x else ?x] => replace (if b then x else x) with x by (destruct b; auto) end. reflexivity. }
      destruct (IH (fun n' p' H => K n' p' (or_intror H)) st') as (I1 & I2 & I3 & I4); rewrite ?E; cbn [captured allowed denied passed all_allowed].
      { destruct (f_all f); auto. apply (law l_and_ok); auto. }
      { destruct (f_allowed f); auto. apply (law l_or_ok); auto. }
      { destruct (f_denied f); auto. apply (law l_or_ok); auto. }
      { apply pok_union; auto. }
      rewrite E in I3, I4. cbn [captured allowed denied passed all_allowed] in I3, I4. rewrite <- E in *.
      split; auto. split; auto. split.
      { intros x. rewrite I3, union_In, C2. split.
        - intros [[H|H]|(n' & p' & H & H')]; auto; right; [exists n, pols|exists n', p']; simpl; auto.
        - intros [H|(n' & p' & [H|H] & H')]; auto; [injection H as <- <-; auto|right; eauto]. }
      intros pt Sp. specialize (I4 pt Sp). destruct I4 as (J1 & J2 & J3 & J4). destruct (M pt Sp) as (M1 & M2 & M3).
      split; [|split; [|split]].
      + intros F. rewrite J1 by auto. rewrite F. rewrite (law l_and), M3 by auto. split.
        * intros [[Q1 [_ Q2]] Q3]. split; auto. intros n' p' [H|H]; auto. injection H as <- <-. auto.
        * intros [Q1 Q2]. split; [split; auto; split; auto; apply Q2; left; auto|]. intros n' p' H. apply Q2. right. auto.
      + intros F. rewrite J2 by auto. rewrite F. auto.
      + rewrite J3. destruct (f_allowed f); [|intuition discriminate]. rewrite (law l_or), M1 by auto. split.
        * intros [[H|[_ H]]|(_ & n' & p' & H & H')]; auto; right; split; auto; [exists n, pols|exists n', p']; simpl; auto.
        * intros [H|(_ & n' & p' & [H|H] & H')]; auto; [injection H as <- <-; auto|right; eauto].
      + rewrite J4. destruct (f_denied f); [|intuition discriminate]. rewrite (law l_or), M2 by auto. split.
        * intros [[H|[_ H]]|(_ & n' & p' & H & H')]; auto; right; split; auto; [exists n, pols|exists n', p']; simpl; auto.
        * intros [H|(_ & n' & p' & [H|H] & H')]; auto; [injection H as <- <-; auto|right; eauto]. }
  assert (E0 : config_start A ps ls f = PConns [] (c_empty A) (c_empty A) (c_empty A)
     (if f_all f then c_rect A (Some (peers_group ps true true)) (Some (peers_group ps true true)) None else c_empty A)).
  { unfold config_start. destruct (pbool (host_eps ps)) eqn:EH; auto. exfalso. apply NH. apply host_eps_bool. auto. }
  rewrite E0. clear E0. set (st := PConns _ _ _ _ _).
  assert (W : cok (c_rect A (Some (peers_group ps true true)) (Some (peers_group ps true true)) None)) by (apply (law l_rect_ok); auto).
  assert (Kst : cok (all_allowed st)) by (unfold st; cbn [all_allowed]; destruct (f_all f); auto).
  destruct (ST st Kst K0 K0 (pok_nil reg)) as ((S1 & S2 & S3) & S4 & S5 & S6).
  set (r := fold_left (config_step A ps f) ls st) in *. clearbody r.
  split; [split; auto; split; auto; destruct (f_allowed f); auto; apply (law l_and_ok); auto|]. split; auto.
  split.
  { intros x. rewrite S5. split; [|auto]. intros [H|H]; auto. exfalso. revert H. apply pbool_false. auto. }
  intros pt Sp. destruct (S6 pt Sp) as (J1 & J2 & J3 & J4). pose proof (law l_empty pt) as N. cbn [st all_allowed allowed denied] in *.
  split; [|split].
  - destruct (f_all f) eqn:F.
    + rewrite J1 by auto. cbn [st all_allowed]. rewrite (law l_rect) by (auto; cbn [opt]; auto). cbn [opt]. rewrite !G2. tauto.
    + rewrite J2 by auto. cbn [st all_allowed]. intuition discriminate.
  - destruct (f_allowed f).
    + rewrite (law l_and), J3 by auto. tauto.
    + rewrite J3. intuition discriminate.
  - rewrite J4. tauto.
Qed.

(** Denied connections, with or without host endpoints. *)
Definition hep_conn (pt : Pt) : Prop := (member ps (src pt) /\ named_hep (src pt)) \/ (member ps (dst pt) /\ named_hep (dst pt)).
Lemma layer_denied_solid : forall n pols f, layer_ok n true pols -> layer_ok n false pols -> solid (denied (layer_conns A n ps pols f)).
Proof using L.
  intros n pols f [K1 S1] [K2 S2]. unfold layer_conns. cbn [denied].
  destruct (f_denied f); [|apply (empty_solid A src dst tcp space cmem cok csafe reg L)].
  assert (E : forall ing, denied (xgress A n ps pols f ing) =
     denied (collect A (match n with LK8sCalico | LK8sGateway => any_policy | _ => istio_capf end) pols ing)).
  { intros ing. destruct n; cbn [xgress]; try reflexivity; unfold istio_xgress; destruct (f_all f); reflexivity. }
  rewrite !E.
  destruct (collect_spec _ _ _ K1 S1) as (_ & _ & _ & (_ & X1 & _) & (_ & X2 & _) & _).
  destruct (collect_spec _ _ _ K2 S2) as (_ & _ & _ & (_ & Y1 & _) & (_ & Y2 & _) & _).
  apply (or_solid A src dst tcp space cmem cok csafe reg L); auto.
Qed.
Lemma config_denied_spec : forall ls, layers_ok ls ->
  let r := config_conns A ps ls only_denied in
  cok (denied r) /\
  forall pt, space pt -> (cmem pt (denied r) <-> exists n pols, In (n, pols) ls /\ layer_denies pols pt /\ (n = LK8sCalico \/ ~ hep_conn pt)).
Proof using L HC.
  intros ls K. cbv zeta. unfold config_conns. cbn [denied]. set (f := only_denied).
  assert (Hf : f_allowed f = true -> f_all f = true) by discriminate.
  destruct conn_hep_spec as [H1 H2]. pose proof (law l_empty_ok) as K0.
  assert (ST : forall st, cok (denied st) ->
     let r := fold_left (config_step A ps f) ls st in
     cok (denied r) /\ forall pt, space pt -> (cmem pt (denied r) <-> cmem pt (denied st) \/ exists n pols, In (n, pols) ls /\ layer_denies pols pt /\ (n = LK8sCalico \/ ~ hep_conn pt))).
  { induction ls as [|[n pols] ls IH]; intros st Kd; cbv zeta.
    - cbn [fold_left]. split; auto. intros pt Sp. split; [auto|intros [H|(n & pols & [] & _)]; auto].
    - cbn [fold_left]. destruct (K n pols) as [K1 K2]; [left; auto|].
      destruct (layer_conns_spec n pols f K1 K2 Hf) as (C1 & C2 & (X1 & X2 & X3) & X4 & M).
      pose proof (layer_denied_solid n pols f K1 K2) as So.
      set (st' := config_step A ps f st (n, pols)).
      set (lc := layer_conns A n ps pols f) in *.
      assert (KE : cok (c_sub A (denied lc) (conn_hep A ps))) by (apply (law l_sub_ok); auto).
      assert (E : cok (denied st') /\ forall pt, space pt -> (cmem pt (denied st') <-> cmem pt (denied st) \/ (layer_denies pols pt /\ (n = LK8sCalico \/ ~ hep_conn pt)))).
      { assert (E : denied st' = c_or A (denied st) (if lname_eqb n LK8sCalico then denied lc else c_sub A (denied lc) (conn_hep A ps))).
        { unfold st', config_step. cbn [fst snd]. fold lc. destruct (lname_eqb n LK8sCalico); reflexivity. }
        rewrite E. split; [destruct (lname_eqb n LK8sCalico); apply (law l_or_ok); auto|]. intros pt Sp. destruct (M pt Sp) as (_ & M2 & _).
        change (f_denied f) with true in M2.
        destruct (lname_eqb n LK8sCalico) eqn:En.
        - rewrite (law l_or), M2 by auto. assert (n = LK8sCalico) by (destruct n; auto; discriminate). tauto.
        - rewrite (law l_or), (law l_sub), M2, H2 by (auto; apply So; auto). assert (n <> LK8sCalico) by (intros ->; discriminate). unfold hep_conn. tauto. }
      destruct E as [E1 E2]. destruct (IH (fun n' p' H => K n' p' (or_intror H)) st' E1) as (I1 & I2).
      split; auto. intros pt Sp. rewrite I2, E2 by auto. split.
      + intros [[H|H]|(n' & p' & H & H')]; auto; right; [exists n, pols|exists n', p']; simpl; auto.
      + intros [H|(n' & p' & [H|H] & H')]; auto; [injection H as <- <-; auto|right; eauto]. }
  assert (S0 : cok (denied (config_start A ps ls f)) /\ forall pt, space pt -> ~ cmem pt (denied (config_start A ps ls f))).
  { assert (X : cok (c_empty A) /\ forall pt, space pt -> ~ cmem pt (c_empty A)) by (split; [auto|intros pt _; apply (law l_empty)]).
    unfold config_start. destruct (pbool (host_eps ps)); [|exact X]. destruct (lget ls LK8sCalico); [exact X|].
    unfold by_filter. cbn [denied]. change (f_denied (replace_no_all f)) with true. cbv iota.
    destruct (layer_conns_spec LK8sCalico [] f (layer_ok_nil _ _) (layer_ok_nil _ _) Hf) as (_ & _ & (_ & X2 & _) & _ & M).
    split; [apply (law l_and_ok); auto|]. intros pt Sp. rewrite (law l_and) by auto. destruct (M pt Sp) as (_ & M2 & _). rewrite M2.
    intros [[_ [H|H]] _]; destruct H as (l1 & x & l2 & E & _); destruct l1; discriminate. }
  destruct S0 as [S1 S2]. destruct (ST _ S1) as [R1 R2]. split; auto. intros pt Sp. rewrite R2 by auto. split; auto.
  intros [H|H]; auto. exfalso. apply (S2 pt Sp H).
Qed.

(** ** filter_conns_by_peer_types *)
Lemma filter_types_spec : forall x, cok x ->
  csafe x (c_rect A (Some all_ips_set) (Some (ps_union all_ips_set (all_dns ps))) None) ->
  (exists pt, space pt /\ is_addr (src pt) /\ (is_addr (dst pt) \/ (member ps (dst pt) /\ named_dns (dst pt)))) ->
  (exists pt, space pt /\ ~ is_addr (src pt)) ->
  cok (filter_by_peer_types A ps x) /\
  forall pt, space pt -> (cmem pt (filter_by_peer_types A ps x) <->
    cmem pt x /\ ~ (is_addr (src pt) /\ (is_addr (dst pt) \/ (member ps (dst pt) /\ named_dns (dst pt)))) /\
    ~ (member ps (src pt) /\ named_dns (src pt))).
Proof using L HC.
  intros x K S E1 E2. unfold filter_by_peer_types. cbv zeta.
  destruct (all_dns_spec reg ps HC) as [D1 D2]. destruct (all_ips_set_spec reg) as [W1 W2].
  pose proof (pok_union reg _ _ W1 D1) as U1.
  assert (R1 : cok (c_rect A (Some all_ips_set) (Some (ps_union all_ips_set (all_dns ps))) None)) by (apply (law l_rect_ok); auto).
  assert (R2 : cok (c_rect A (Some (all_dns ps)) None None)) by (apply (law l_rect_ok); cbn; auto).
  assert (M1 : forall pt, space pt -> (cmem pt (c_rect A (Some all_ips_set) (Some (ps_union all_ips_set (all_dns ps))) None) <->
     is_addr (src pt) /\ (is_addr (dst pt) \/ (member ps (dst pt) /\ named_dns (dst pt))))).
  { intros pt Sp. rewrite (law l_rect) by (auto; cbn [opt]; auto). cbn [opt]. rewrite union_In, !W2, D2. tauto. }
  assert (S2 : csafe (c_sub A x (c_rect A (Some all_ips_set) (Some (ps_union all_ips_set (all_dns ps))) None)) (c_rect A (Some (all_dns ps)) None None)).
  { apply (law l_safe_after_rect); auto.
    - destruct E1 as (pt & Sp & H). exists pt. split; auto. apply M1; auto.
    - destruct E2 as (pt & Sp & H). exists pt. split; auto. rewrite W2. auto. }
  assert (K1 : cok (c_sub A x (c_rect A (Some all_ips_set) (Some (ps_union all_ips_set (all_dns ps))) None))) by (apply (law l_sub_ok); auto).
  split; [apply (law l_sub_ok); auto|]. intros pt Sp. rewrite !(law l_sub), M1 by auto.
  rewrite (law l_rect) by (auto; cbn [opt]; auto). cbn [opt]. rewrite D2. tauto.
Qed.
End WithPeers.
End Layer.
