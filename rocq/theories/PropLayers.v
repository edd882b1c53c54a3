(** * C20-C28: policies, layers and configurations.

    The theorems are about the model of PolicyModel.v run on the modelled ConnectivityProperties objects (ConnAlg.v), for
    every dimension table that satisfies [alg_ok] (the code's own table does: [std_alg]).  A connection is a point
    [pt : dim -> Z] of the space spanned by the domains; [pt @ x] says that it belongs to the object [x]. *)
From Coq Require Import ZArith List Bool Arith Lia String Permutation Sorting.Sorted.
From Verif Require Import IntervalModel IntervalFacts HyperModel HyperFacts HyperTop HyperInst PropHyperCube ConnModel
                          PortProtoModel PeerModel PeerFacts PeerSetFacts PolicyModel PolicyLaws PolicyFacts LayerFacts
                          OrderFacts ConnAlg StdDims.
Import ListNotations.
Local Open Scope string_scope.
Local Open Scope nat_scope.
Local Open Scope list_scope.

Notation conns := (hc val).
Notation policy := (@policy (hc val)).
Notation rule := (@rule (hc val)).
Notation conn := (dim -> Z).
Notation "pt @ x" := (a_mem pt x) (at level 70).

(** ** Vocabulary of the statements *)
Definition rules_of (p : policy) (ing : bool) : list rule := if ing then p_ingress p else p_egress p.
(** Some rule of the list matches the connection. *)
Definition some_rule (rs : list rule) (pt : conn) : Prop := exists r, In r rs /\ pt @ r_props r.
(** The first rule, other than Log rules, that matches the connection has action [a]. *)
Definition first_match (rs : list rule) (pt : conn) (a : action) : Prop :=
  exists pre r post, rs = pre ++ r :: post /\ r_action r = a /\ a <> Log /\ pt @ r_props r /\
    forall q, In q pre -> r_action q <> Log -> ~ pt @ r_props q.
Definition no_match (rs : list rule) (pt : conn) : Prop := forall q, In q rs -> r_action q <> Log -> ~ pt @ r_props q.
(** The policy selects the peer, in this direction. *)
Definition selects (p : policy) (ing : bool) (x : point) : Prop :=
  pt_in x (p_selected p) /\
  match p_kind p with
  | TIstioAP => ing = true
  | TSidecar => ing = false /\ p_affects_eg p = true
  | TK8s | TCalico | TCalicoGlobal | TCalicoProfile | TIngress | TGatewayPolicy =>
      if ing then p_affects_in p = true else p_affects_eg p = true
  | _ => False
  end.
(** The opinion of a policy about a connection in one direction. *)
Definition opinion (p : policy) (ing : bool) (pt : conn) (a : action) : Prop :=
  match p_kind p with
  | TK8s => a = Allow /\ some_rule (rules_of p ing) pt
  | TCalico | TCalicoGlobal | TCalicoProfile => first_match (rules_of p ing) pt a
  | TIstioAP => ing = true /\ a = p_action p /\ (a = Allow \/ a = Deny) /\ some_rule (p_ingress p) pt
  | TSidecar => a = Allow /\ (ing = true \/ some_rule (p_egress p) pt)
  | TIngress | TGatewayPolicy => a = p_action p /\ (a = Allow \/ a = Deny) /\ some_rule (rules_of p ing) pt
  | _ => False
  end.
(** The first policy of the list that captures some peer in this direction and has an opinion says [a]. *)
Definition captures_some (p : policy) (ing : bool) : Prop := policy_captured p ing <> [].
Definition first_opinion (pols : list policy) (ing : bool) (pt : conn) (a : action) : Prop :=
  exists pre p post, pols = pre ++ p :: post /\ captures_some p ing /\ opinion p ing pt a /\
    forall q b, In q pre -> captures_some q ing -> ~ opinion q ing pt b.
Definition no_opinion (pols : list policy) (ing : bool) (pt : conn) : Prop :=
  forall q b, In q pols -> captures_some q ing -> ~ opinion q ing pt b.
Definition selected_by (pols : list policy) (ing : bool) (x : point) : Prop := exists p, In p pols /\ selects p ing x.

Section Cubes.
Context (dom : dim -> val) (rest : list dim) (reg vis : list peer) (D protos : iset) (K : alg_ok dom rest reg vis D protos).
Let all := d_src :: d_dst :: d_proto :: rest.
Let A := cube_ops dom all reg.
Let L := cube_laws dom rest reg vis D protos K.
Notation space := (a_space dom).
Notation wf := (a_ok dom rest).
Notation from := (a_src reg).
Notation to := (a_dst reg).

(** Objects a rule may carry: non-empty, or the empty object the code creates for empty cubes. *)
Definition regular (x : conns) : Prop := wf x /\ (hbool x = true \/ x = hempty Conn all).
Definition is_calico (p : policy) : Prop := p_kind p = TCalico \/ p_kind p = TCalicoGlobal \/ p_kind p = TCalicoProfile.
(** Well-formed policies; the objects of Calico rules, which are subtracted from each other, are regular. *)
Definition policy_wf (p : policy) : Prop :=
  (forall r, In r (p_ingress p ++ p_egress p) -> wf (r_props r) /\ (is_calico p -> regular (r_props r))) /\ pok vis (p_selected p).
Lemma policy_wf_regular : forall p, (forall r, In r (p_ingress p ++ p_egress p) -> regular (r_props r)) -> pok vis (p_selected p) -> policy_wf p.
Proof using. intros p H P. split; auto. intros r Hr. split; auto. apply (H r Hr). Qed.
(** No rule is entirely shadowed by the rules before it. *)
Definition not_shadowed (rs : list rule) : Prop := forall pre r post, rs = pre ++ r :: post -> r_action r <> Log ->
  exists pt, space pt /\ pt @ r_props r /\ no_match pre pt.
Definition exact_rules (rs : list rule) : Prop := (forall r, In r rs -> r_action r <> Pass) \/ not_shadowed rs.

(** Every verdict of a policy is either void or not entirely shadowed by the policies before it. *)
Definition pols_not_shadowed (ing : bool) (pols : list policy) : Prop := forall pre p post, pols = pre ++ p :: post ->
  captures_some p ing -> forall a,
  (exists pt, space pt /\ opinion p ing pt a /\ no_opinion pre ing pt) \/ (forall pt, space pt -> ~ opinion p ing pt a).
Definition without_pass (p : policy) : Prop := is_calico p -> forall r, In r (p_ingress p ++ p_egress p) -> r_action r <> Pass.
(** Policy lists evaluated exactly: no Pass rules, or nothing entirely shadowed. *)
Definition exact_policies (pols : list policy) : Prop :=
  (forall p, In p pols -> policy_wf p) /\
  ((forall p, In p pols -> without_pass p) \/
   forall ing, (forall p, In p pols -> is_calico p -> exact_rules (rules_of p ing)) /\ pols_not_shadowed ing pols).

(** ** Bridges *)
Lemma regular_solid : forall x, regular x -> solid wf (a_safe rest) x.
Proof using K.
  intros x [Wx [H| ->]] y Wy.
  - unfold a_safe, sub_safe. rewrite H. reflexivity.
  - apply (l_safe_fresh _ _ _ _ _ _ _ _ _ L); auto.
Qed.
Lemma first_bridge : forall rs pt a, first_match rs pt a <-> first_says (rule_says a_mem pt) rs a.
Proof using.
  intros rs pt a. unfold first_match, first_says, rule_says. split.
  - intros (pre & r & post & E & Ea & NL & M & N). exists pre, r, post. split; auto. split; auto.
    intros q b Hq (E1 & E2 & E3). apply (N q Hq); auto. congruence.
  - intros (pre & r & post & E & (Ea & NL & M) & N). exists pre, r, post. do 4 (split; [auto|]).
    intros q Hq NLq Mq. apply (N q (r_action q) Hq). auto.
Qed.
Lemma says_bridge : forall p ing pt a, opinion p ing pt a <-> policy_says a_mem ing pt p a.
Proof using.
  intros p ing pt a. unfold opinion, policy_says, some_rule, rules_of. cbv zeta.
  destruct (p_kind p); cbn [class_of]; try tauto; try apply first_bridge.
  - destruct ing; intuition discriminate.
  - destruct ing; intuition discriminate.
Qed.
Lemma decides_bridge : forall p ing pt a, decides a_mem ing pt p a <-> captures_some p ing /\ opinion p ing pt a.
Proof using. intros p ing pt a. unfold decides, captures_some. rewrite says_bridge. tauto. Qed.
Lemma verdict_bridge : forall pols ing pt a, first_opinion pols ing pt a <-> first_says (decides a_mem ing pt) pols a.
Proof using.
  intros pols ing pt a. unfold first_opinion, first_says. split.
  - intros (pre & p & post & E & C1 & C2 & N). exists pre, p, post. split; auto. split; [apply decides_bridge; auto|].
    intros q b Hq H. apply decides_bridge in H as [H1 H2]. apply (N q b Hq H1 H2).
  - intros (pre & p & post & E & H & N). apply decides_bridge in H as [C1 C2]. exists pre, p, post. do 3 (split; [auto|]).
    intros q b Hq H1 H2. apply (N q b Hq). apply decides_bridge; auto.
Qed.
Lemma captured_bridge : forall p ing x, pt_in x (policy_captured p ing) <-> selects p ing x.
Proof using.
  assert (NE : forall x, ~ pt_in x []) by (intros [k n|y]; cbn [pt_in]; [tauto|intros (l & [] & _)]).
  intros p ing x. unfold policy_captured, selects. specialize (NE x).
  destruct (p_kind p), ing; cbn [class_of]; try destruct (p_affects_in p); try destruct (p_affects_eg p); intuition discriminate.
Qed.
Lemma captured_by_bridge : forall pols ing x, captured_by (fun _ => true) pols ing x <-> selected_by pols ing x.
Proof using.
  intros pols ing x. unfold captured_by, selected_by. split.
  - intros (p & Hp & _ & H). exists p. rewrite <- captured_bridge. auto.
  - intros (p & Hp & H). exists p. rewrite captured_bridge. auto.
Qed.
Lemma calico_class : forall p, is_calico p <-> class_of (p_kind p) = CCalico.
Proof using. intros p. unfold is_calico. destruct (p_kind p); cbn; intuition discriminate. Qed.
Lemma wf_ok : forall p, policy_wf p -> policy_ok wf vis p.
Proof using.
  intros p [H1 H2]. split; [|split; auto]; intros r Hr; refine (proj1 (H1 r _)); apply in_or_app; auto.
Qed.
Lemma exact_safe : forall rs, (forall r, In r rs -> regular (r_props r)) -> exact_rules rs -> calico_safe A (a_safe rest) rs.
Proof using K.
  intros rs R [H|H].
  - apply (calico_no_pass_safe A _ _ _ _ _ _ _ _ L); auto; intros r Hr; [apply R; auto|apply regular_solid; auto].
  - apply (unshadowed_safe A _ _ _ _ _ _ _ _ L); [intros r Hr; apply R; auto|exact H].
Qed.
Lemma exact_layer : forall capf pols ing, exact_policies pols ->
  policies_ok A wf (a_safe rest) vis ing pols /\ collect_safe A (a_safe rest) capf ing pols.
Proof using K.
  intros capf pols ing [W [H|H]].
  - assert (P : forall p, In p pols -> policy_ok wf vis p /\ no_pass wf (a_safe rest) p).
    { intros p Hp. split; [apply wf_ok; auto|]. intros E r Hr. split; [apply (H p Hp); auto; apply calico_class; auto|].
      apply regular_solid. destruct (W p Hp) as [W1 _]. apply W1; auto. apply calico_class; auto. }
    split; [|apply (collect_no_pass A _ _ _ _ _ _ _ _ L); auto].
    intros p Hp. destruct (P p Hp). split; auto. apply (no_pass_safe A _ _ _ _ _ _ _ _ L); auto.
  - destruct (H ing) as [H1 H2].
    assert (P : policies_ok A wf (a_safe rest) vis ing pols).
    { intros p Hp. split; [apply wf_ok; auto|]. intros E. apply exact_safe.
      - intros r Hr. destruct (W p Hp) as [Wp _]. apply Wp; [apply in_or_app; destruct ing; auto|apply calico_class; auto].
      - apply (H1 p Hp). apply calico_class; auto. }
    split; auto. apply (collect_unshadowed A _ _ _ _ _ _ _ _ L); auto.
    intros pre p post E C a. destruct (H2 pre p post E C a) as [(pt & Sp & O & N)|N].
    + left. exists pt. split; auto. split; [apply says_bridge; auto|]. intros q b Hq Hd.
      apply decides_bridge in Hd as [D1 D2]. apply (N q b Hq D1 D2).
    + right. intros pt Sp Hs. apply (N pt Sp). apply says_bridge; auto.
Qed.
Lemma exact_layer_ok : forall n pols, exact_policies pols -> layer_ok A wf (a_safe rest) vis n true pols /\ layer_ok A wf (a_safe rest) vis n false pols.
Proof using K. intros n pols E. split; apply (exact_layer _ _ _ E). Qed.

(** ** C20: Calico rules are evaluated first-match *)
Theorem C20_first_match : forall p ing, policy_wf p -> is_calico p -> exact_rules (rules_of p ing) ->
  let r := policy_conns A p ing in
  forall pt, space pt ->
    (pt @ allowed r <-> first_match (rules_of p ing) pt Allow) /\
    (pt @ denied r <-> first_match (rules_of p ing) pt Deny) /\
    (pt @ passed r <-> first_match (rules_of p ing) pt Pass) /\
    (* disjoint *)
    ~ (pt @ allowed r /\ pt @ denied r) /\ ~ (pt @ allowed r /\ pt @ passed r) /\ ~ (pt @ denied r /\ pt @ passed r) /\
    (* in none of the three exactly when no rule matches *)
    ((~ pt @ allowed r /\ ~ pt @ denied r /\ ~ pt @ passed r) <-> no_match (rules_of p ing) pt).
Proof using K.
  intros p ing W C E. cbv zeta. intros pt Sp.
  assert (S : policy_safe A (a_safe rest) ing p).
  { intros _. apply exact_safe; auto. intros r Hr. apply W; auto. apply in_or_app. destruct ing; auto. }
  destruct (policy_conns_spec A _ _ _ _ _ _ _ _ L ing p (wf_ok p W) S) as (_ & _ & _ & _ & M).
  destruct (M pt Sp) as (M1 & M2 & M3).
  assert (B : forall a, policy_says a_mem ing pt p a <-> first_match (rules_of p ing) pt a).
  { intros a. rewrite <- says_bridge. unfold opinion. destruct C as [->|[->| ->]]; tauto. }
  rewrite B in M1, M2, M3.
  assert (F : forall a b, first_match (rules_of p ing) pt a -> first_match (rules_of p ing) pt b -> a = b).
  { intros a b. rewrite <- !B. apply policy_fn. }
  rewrite M1, M2, M3. do 3 (split; [tauto|]).
  split; [intros [X Y]; discriminate (F _ _ X Y)|]. split; [intros [X Y]; discriminate (F _ _ X Y)|].
  split; [intros [X Y]; discriminate (F _ _ X Y)|]. split.
  - intros (N1 & N2 & N3) q Hq NL Mq.
    assert (Dec : forall r, In r (rules_of p ing) -> (exists b, rule_says a_mem pt r b) \/ (forall b, ~ rule_says a_mem pt r b)).
    { intros r Hr. apply (rule_dec A _ _ _ _ _ _ _ _ L). refine (proj1 (proj1 W r _)). apply in_or_app. unfold rules_of in Hr. destruct ing; auto. }
    destruct (silent_dec_iff (rule_says a_mem pt) _ Dec) as [[a Ha]|Si].
    + apply first_bridge in Ha. destruct a; auto. destruct Ha as (_ & _ & _ & _ & _ & X & _). congruence.
    + apply (Si q (r_action q) Hq). split; auto.
  - intros N. repeat split; intros (pre & r & post & E1 & E2 & E3 & E4 & _); apply (N r); auto; rewrite ?E1; try (apply in_or_app; simpl; auto); congruence.
Qed.

(** ** C21: K8s policies *)
Theorem C21_union_of_rules : forall p ing, policy_wf p -> p_kind p = TK8s ->
  let r := policy_conns A p ing in
  (forall pt, space pt -> (pt @ allowed r <-> some_rule (rules_of p ing) pt) /\ ~ pt @ denied r /\ ~ pt @ passed r) /\
  (forall x, pt_in x (captured r) <-> pt_in x (p_selected p) /\ (if ing then p_affects_in p = true else p_affects_eg p = true)).
Proof using K.
  intros p ing W C. cbv zeta.
  assert (S : policy_safe A (a_safe rest) ing p) by (intros E; rewrite C in E; discriminate).
  destruct (policy_conns_spec A _ _ _ _ _ _ _ _ L ing p (wf_ok p W) S) as (-> & _ & _ & _ & M). split.
  - intros pt Sp. destruct (M pt Sp) as (M1 & M2 & M3). rewrite M1, M2, M3, <- !says_bridge. unfold opinion. rewrite C. intuition discriminate.
  - intros x. rewrite captured_bridge. unfold selects. rewrite C. tauto.
Qed.

(** ** C23: the first decisive policy wins *)
Theorem C23_first_decisive_policy_wins : forall capf pols ing, exact_policies pols ->
  let r := collect A capf pols ing in
  (forall pt, space pt ->
    (pt @ allowed r <-> first_opinion pols ing pt Allow) /\
    (pt @ denied r <-> first_opinion pols ing pt Deny) /\
    (pt @ passed r <-> first_opinion pols ing pt Pass) /\
    ~ (pt @ allowed r /\ pt @ denied r) /\ ~ (pt @ allowed r /\ pt @ passed r) /\ ~ (pt @ denied r /\ pt @ passed r) /\
    ((~ pt @ allowed r /\ ~ pt @ denied r /\ ~ pt @ passed r) <-> no_opinion pols ing pt)) /\
  (forall x, pt_in x (captured r) <-> exists p, In p pols /\ capf p = true /\ selects p ing x).
Proof using K.
  intros capf pols ing E. cbv zeta. destruct (exact_layer capf pols ing E) as [PO CS].
  destruct (collect_spec A _ _ _ _ _ _ _ _ L capf ing pols PO CS) as (_ & C2 & _ & _ & _ & M). split.
  - intros pt Sp. destruct (M pt Sp) as (M1 & M2 & M3).
    assert (F : forall a b, first_opinion pols ing pt a -> first_opinion pols ing pt b -> a = b).
    { intros a b. rewrite !verdict_bridge. apply first_fn. apply decides_fn. }
    rewrite <- !verdict_bridge in M1, M2, M3. rewrite M1, M2, M3. do 3 (split; [tauto|]).
    split; [intros [X Y]; discriminate (F _ _ X Y)|]. split; [intros [X Y]; discriminate (F _ _ X Y)|].
    split; [intros [X Y]; discriminate (F _ _ X Y)|]. split.
    + intros (N1 & N2 & N3) q b Hq C O.
      assert (Dec : forall p, In p pols -> (exists b, decides a_mem ing pt p b) \/ (forall b, ~ decides a_mem ing pt p b)).
      { intros p Hp. apply (decides_dec A _ _ _ _ _ _ _ _ L). apply (PO p Hp). }
      destruct (silent_dec_iff (decides a_mem ing pt) _ Dec) as [[a Ha]|Si].
      * assert (NL : a <> Log) by (intros ->; apply (layer_log a_mem ing pt pols Ha)).
        apply verdict_bridge in Ha. destruct a; auto.
      * apply (Si q b Hq). apply decides_bridge; auto.
    + intros N. repeat split; intros (pre & p & post & E1 & E2 & E3 & _); refine (N p _ _ E2 E3); rewrite E1; apply in_or_app; simpl; auto.
  - intros x. rewrite C2. unfold captured_by. split; intros (p & Hp & H1 & H2); exists p; [rewrite <- captured_bridge|rewrite captured_bridge]; auto.
Qed.

(** ** C24: the K8s/Calico layer *)
Section WithPeers.
Context (ps : peerset) (HC : container vis ps).
(** The peers of the cluster: [ps]; connections may also start or end at any IP address. *)
Definition pod_or_ip (x : point) : Prop := member ps x \/ is_addr x.

(** Rules only match connections whose local side is selected, and only cluster peers are selected (so built by the
    parsers: the selected peers become the destinations of ingress rules and the sources of egress rules). *)
Definition confined (p : policy) : Prop :=
  (forall r pt, space pt -> In r (p_ingress p) -> pt @ r_props r -> pt_in (to pt) (p_selected p)) /\
  (forall r pt, space pt -> In r (p_egress p) -> pt @ r_props r -> pt_in (from pt) (p_selected p)) /\
  (forall x, pt_in x (p_selected p) -> member ps x).
(** The first policy that selects the peer at this side and has an opinion says [a]. *)
Definition verdict (pols : list policy) (ing : bool) (pt : conn) (a : action) : Prop :=
  exists pre p post, pols = pre ++ p :: post /\ selects p ing (if ing then to pt else from pt) /\ opinion p ing pt a /\
    forall q b, In q pre -> selects q ing (if ing then to pt else from pt) -> ~ opinion q ing pt b.
(** One side of a K8s/Calico layer. *)
Definition side_allows (pols : list policy) (ing : bool) (pt : conn) : Prop :=
  let x := if ing then to pt else from pt in
  let y := if ing then from pt else to pt in
  (* an IP address, talking to a pod *)
  (is_addr x /\ member ps y /\ ~ named_dns y) \/
  (* a host endpoint: only what is explicitly allowed *)
  (member ps x /\ named_hep x /\ verdict pols ing pt Allow) \/
  (* a pod: everything if not selected, otherwise what the first verdict allows or passes on *)
  (member ps x /\ ~ named_hep x /\ (~ selected_by pols ing x \/ verdict pols ing pt Allow \/ verdict pols ing pt Pass)).

Lemma opinion_selects : forall p ing pt a, confined p -> space pt -> captures_some p ing -> opinion p ing pt a ->
  selects p ing (if ing then to pt else from pt).
Proof using.
  intros p ing pt a (C1 & C2 & _) Sp C O.
  assert (S : some_rule (rules_of p ing) pt \/ (p_kind p = TSidecar /\ ing = true)).
  { unfold opinion in O. destruct (p_kind p) eqn:E; try tauto.
    - destruct O as (pre & r & post & E1 & _ & _ & M & _). left. exists r. rewrite E1. split; auto. apply in_or_app; simpl; auto.
    - destruct O as (pre & r & post & E1 & _ & _ & M & _). left. exists r. rewrite E1. split; auto. apply in_or_app; simpl; auto.
    - destruct O as (pre & r & post & E1 & _ & _ & M & _). left. exists r. rewrite E1. split; auto. apply in_or_app; simpl; auto.
    - destruct O as (-> & _ & _ & O). auto.
    - destruct ing; [auto|]. destruct O as (_ & [O|O]); [discriminate|auto]. }
  unfold captures_some, policy_captured in C. destruct S as [(r & Hr & M)|[E1 E2]]; [|rewrite E1, E2 in C; cbn in C; congruence].
  assert (P : pt_in (if ing then to pt else from pt) (p_selected p)) by (unfold rules_of in Hr; destruct ing; eauto).
  unfold selects. split; auto. destruct (p_kind p), ing; cbn [class_of] in C; try congruence; destruct (p_affects_in p), (p_affects_eg p); auto; congruence.
Qed.
Lemma selects_captures : forall p ing x, selects p ing x -> captures_some p ing.
Proof using.
  intros p ing x H C. apply captured_bridge in H. rewrite C in H. destruct x; cbn [pt_in] in H; [destruct H|destruct H as (l & [] & _)].
Qed.
Lemma verdict_first : forall pols ing pt a, (forall p, In p pols -> confined p) -> space pt ->
  (verdict pols ing pt a <-> first_opinion pols ing pt a).
Proof using.
  intros pols ing pt a C Sp. split.
  - intros (pre & p & post & E & S & O & N). exists pre, p, post. split; auto. split; [eapply selects_captures; eauto|]. split; auto.
    intros q b Hq Cq Oq. apply (N q b Hq); auto. apply (opinion_selects q ing pt b); auto. apply C. rewrite E. apply in_or_app; auto.
  - intros (pre & p & post & E & S & O & N). exists pre, p, post. split; auto.
    split; [apply (opinion_selects p ing pt a); auto; apply C; rewrite E; apply in_or_app; simpl; auto|]. split; auto.
    intros q b Hq Sq. apply (N q b Hq). eapply selects_captures; eauto.
Qed.
Lemma verdict_selected : forall pols ing pt a, verdict pols ing pt a -> selected_by pols ing (if ing then to pt else from pt).
Proof using. intros pols ing pt a (pre & p & post & E & S & _). exists p. split; auto. rewrite E. apply in_or_app; simpl; auto. Qed.

Theorem C24_k8s_calico_layer : forall pols f, exact_policies pols -> (forall p, In p pols -> confined p) ->
  f_all f = true ->
  let r := layer_conns A LK8sCalico ps pols f in
  forall pt, space pt -> pod_or_ip (from pt) -> pod_or_ip (to pt) ->
    (pt @ all_allowed r <-> side_allows pols true pt /\ side_allows pols false pt).
Proof using K HC.
  intros pols f E C F. cbv zeta. intros pt Sp Hs Hd.
  destruct (exact_layer_ok LK8sCalico pols E) as [O1 O2].
  destruct (layer_conns_spec A _ _ _ _ _ _ _ _ L ps HC LK8sCalico pols f O1 O2 (fun _ => F)) as (_ & _ & _ & _ & M).
  destruct (M pt Sp) as (_ & _ & ->).
  assert (X1 : forall ing a, first_says (decides a_mem ing pt) pols a <-> verdict pols ing pt a).
  { intros ing a. rewrite verdict_first, verdict_bridge by auto. tauto. }
  assert (X2 : forall ing a x, verdict pols ing pt a -> x = (if ing then to pt else from pt) -> selected_by pols ing x /\ member ps x).
  { intros ing a x V ->. pose proof (verdict_selected _ _ _ _ V) as S. split; auto. destruct S as (p & Hp & [S _]). apply (C p Hp). auto. }
  assert (MA : forall x, member ps x -> ~ is_addr x) by (intros [k n|y]; cbn; tauto).
  assert (HD : forall x, named_hep x \/ ~ named_hep x).
  { intros [k n|y]; cbn [named_hep]; [|tauto]. destruct (Nat.eq_dec k 1); auto. }
  unfold layer_allows, layer_in, layer_out, dir_explicit, dir_default, k8s_explicit, k8s_default, anywhere, pod, here, there, any_policy.
  cbv beta iota. rewrite !X1. rewrite !captured_by_bridge. unfold side_allows. cbv zeta beta iota.
  assert (T : forall VA VP m h S mf af df a : Prop, (mf \/ af) -> (m \/ a) -> (VA -> S /\ m) -> (VP -> S /\ m) -> (h \/ ~ h) ->
    (((VA \/ (VP /\ m /\ ~ h /\ S /\ (mf \/ af))) \/ (m /\ ~ h /\ ~ S /\ (mf \/ af)) \/ (a /\ mf /\ ~ df)) <->
     (a /\ mf /\ ~ df) \/ (m /\ h /\ VA) \/ (m /\ ~ h /\ (~ S \/ VA \/ VP)))) by (clear; intros; tauto).
  rewrite <- (T (verdict pols true pt Allow) (verdict pols true pt Pass) (member ps (to pt)) (named_hep (to pt))
               (selected_by pols true (to pt)) (member ps (from pt)) (is_addr (from pt)) (named_dns (from pt)) (is_addr (to pt)));
    auto; [|intros V; apply (X2 true Allow (to pt)); auto|intros V; apply (X2 true Pass (to pt)); auto].
  rewrite <- (T (verdict pols false pt Allow) (verdict pols false pt Pass) (member ps (from pt)) (named_hep (from pt))
               (selected_by pols false (from pt)) (member ps (to pt)) (is_addr (to pt)) (named_dns (to pt)) (is_addr (from pt)));
    auto; [|intros V; apply (X2 false Allow (from pt)); auto|intros V; apply (X2 false Pass (from pt)); auto].
  clear - F. assert (G : forall a b c d e g : Prop, (a <-> b) -> (c <-> d) -> (e <-> g) -> a -> (a /\ c /\ e <-> d /\ g)) by (clear; tauto).
  apply (G _ True); [tauto|tauto|tauto|auto].
Qed.

(** ** C25: the Istio layer *)
(** The list as the container keeps it: authorization policies, Deny before Allow, and Sidecars (see C22). *)
Definition istio_list (pols : list policy) : Prop :=
  (forall p, In p pols -> p_kind p = TIstioAP /\ (p_action p = Allow \/ p_action p = Deny) \/ p_kind p = TSidecar) /\
  deny_first_ap pols.
(** Some authorization policy with action [a] selects the destination and has a rule that matches. *)
Definition ap_matches (pols : list policy) (a : action) (pt : conn) : Prop :=
  exists p, In p pols /\ p_kind p = TIstioAP /\ p_action p = a /\ pt_in (to pt) (p_selected p) /\ some_rule (p_ingress p) pt.
(** Some Allow policy selects the peer. *)
Definition ap_restricts (pols : list policy) (x : point) : Prop :=
  exists p, In p pols /\ p_kind p = TIstioAP /\ p_action p = Allow /\ pt_in x (p_selected p).
Definition sidecar_matches (pols : list policy) (pt : conn) : Prop :=
  exists p, In p pols /\ p_kind p = TSidecar /\ p_affects_eg p = true /\ pt_in (from pt) (p_selected p) /\ some_rule (p_egress p) pt.
Definition sidecar_restricts (pols : list policy) (x : point) : Prop :=
  exists p, In p pols /\ p_kind p = TSidecar /\ p_affects_eg p = true /\ pt_in x (p_selected p).

Lemma istio_in_decides : forall pols pt p a, istio_list pols -> (forall p, In p pols -> confined p) -> space pt -> In p pols ->
  (decides a_mem true pt p a <-> p_kind p = TIstioAP /\ p_action p = a /\ pt_in (to pt) (p_selected p) /\ some_rule (p_ingress p) pt).
Proof using.
  intros pols pt p a [KL _] C Sp Hp. rewrite decides_bridge. destruct (KL p Hp) as [[E Ea]|E].
  - split.
    + intros [C1 O]. pose proof (opinion_selects p true pt a (C p Hp) Sp C1 O) as [S _]. unfold opinion in O. rewrite E in O.
      destruct O as (_ & -> & _ & O). auto.
    + intros (_ & <- & S & O). split.
      * unfold captures_some, policy_captured. rewrite E. cbn. intros X. rewrite X in S. destruct (to pt); cbn [pt_in] in S; [destruct S|destruct S as (l & [] & _)].
      * unfold opinion. rewrite E. auto.
  - split; [|intros [X _]; congruence]. intros [C1 _]. exfalso. apply C1. unfold policy_captured. rewrite E. reflexivity.
Qed.
Lemma istio_eg_decides : forall pols pt p a, istio_list pols -> (forall p, In p pols -> confined p) -> space pt -> In p pols ->
  (decides a_mem false pt p a <-> p_kind p = TSidecar /\ a = Allow /\ p_affects_eg p = true /\ pt_in (from pt) (p_selected p) /\ some_rule (p_egress p) pt).
Proof using.
  intros pols pt p a [KL _] C Sp Hp. rewrite decides_bridge. destruct (KL p Hp) as [[E Ea]|E].
  - split; [|intros [X _]; congruence]. intros [C1 _]. exfalso. apply C1. unfold policy_captured. rewrite E. reflexivity.
  - split.
    + intros [C1 O]. pose proof (opinion_selects p false pt a (C p Hp) Sp C1 O) as [S S2]. unfold opinion in O. rewrite E in O, S2.
      destruct O as (-> & [O|O]); [discriminate|]. tauto.
    + intros (_ & -> & Af & S & O). split.
      * unfold captures_some, policy_captured. rewrite E. cbn. rewrite Af. intros X. rewrite X in S. destruct (from pt); cbn [pt_in] in S; [destruct S|destruct S as (l & [] & _)].
      * unfold opinion. rewrite E. auto.
Qed.

Lemma first_of_some : forall {X} (P : X -> action -> Prop) l, (forall x, In x l -> (exists b, P x b) \/ (forall b, ~ P x b)) ->
  forall x a, In x l -> P x a -> exists b, first_says P l b.
Proof using.
  intros X P l Dec x a Hx H. destruct (silent_dec_iff P l Dec) as [F|S]; auto. exfalso. apply (S x a Hx H).
Qed.

Lemma istio_verdicts : forall pols pt, exact_policies pols -> istio_list pols -> (forall p, In p pols -> confined p) -> space pt ->
  (first_says (decides a_mem true pt) pols Deny <-> ap_matches pols Deny pt) /\
  (first_says (decides a_mem true pt) pols Allow <-> ~ ap_matches pols Deny pt /\ ap_matches pols Allow pt) /\
  (first_says (decides a_mem false pt) pols Allow <-> sidecar_matches pols pt) /\
  ~ first_says (decides a_mem false pt) pols Deny.
Proof using K.
  intros pols pt E KL C Sp.
  assert (Dec : forall ing p, In p pols -> (exists b, decides a_mem ing pt p b) \/ (forall b, ~ decides a_mem ing pt p b)).
  { intros ing p Hp. apply (decides_dec A _ _ _ _ _ _ _ _ L). apply (exact_layer any_policy pols ing E); auto. }
  pose proof (fun p a => istio_in_decides pols pt p a KL C Sp) as DI.
  pose proof (fun p a => istio_eg_decides pols pt p a KL C Sp) as DE.
  assert (AM : forall a, ap_matches pols a pt <-> exists p, In p pols /\ decides a_mem true pt p a).
  { intros a. unfold ap_matches. split; intros (p & Hp & H); exists p; (split; [auto|]); apply DI; auto. }
  assert (FI : forall l x r, pols = l ++ x :: r -> In x pols) by (intros l x r ->; apply in_or_app; simpl; auto).
  assert (DD : ap_matches pols Deny pt -> first_says (decides a_mem true pt) pols Deny).
  { intros H. apply AM in H as (p & Hp & Dp). destruct (first_of_some (decides a_mem true pt) pols (Dec true) p Deny Hp Dp) as [b (l & x & r & E1 & Dx & N)].
    exists l, x, r. split; auto. split; auto.
    assert (b = Deny); [|congruence]. pose proof Hp as Hp'. rewrite E1 in Hp'. apply in_app_or in Hp' as [H|[<-|H]].
    - exfalso. apply (N p Deny H Dp).
    - apply (decides_fn a_mem true pt x); auto.
    - pose proof (FI _ _ _ E1) as Hx. pose proof Dx as Dx'. apply DI in Dx as (K1 & <- & _); auto. apply DI in Dp as (K2 & K3 & _); auto.
      apply (proj2 KL l x r p E1 H); auto; unfold is_ap; [rewrite K1|rewrite K2]; reflexivity. }
  split; [|split; [|split]].
  - split; auto. intros (l & x & r & E1 & Dx & _). apply AM. exists x. split; auto. apply (FI _ _ _ E1).
  - split.
    + intros F. split.
      * intros H. pose proof (first_fn _ (decides_fn a_mem true pt) _ _ _ F (DD H)). discriminate.
      * destruct F as (l & x & r & E1 & Dx & _). apply AM. exists x. split; auto. apply (FI _ _ _ E1).
    + intros [ND HA]. apply AM in HA as (p & Hp & Dp). destruct (first_of_some _ pols (Dec true) p Allow Hp Dp) as [b Fb].
      destruct b; auto; exfalso.
      * apply ND. destruct Fb as (l & x & r & E1 & Dx & _). apply AM. exists x. split; auto. apply (FI _ _ _ E1).
      * destruct Fb as (l & x & r & E1 & Dx & _). pose proof (FI _ _ _ E1) as Hx. apply DI in Dx as (K1 & K2 & _); auto.
        destruct (proj1 KL x Hx) as [[_ [Y|Y]]|Y]; congruence.
      * apply (layer_log a_mem true pt pols Fb).
  - unfold sidecar_matches. split.
    + intros (l & x & r & E1 & Dx & _). exists x. pose proof (FI _ _ _ E1) as Hx. split; auto. apply DE in Dx as (K1 & _ & K2); auto.
    + intros (p & Hp & K1 & K2 & K3 & K4). assert (Dp : decides a_mem false pt p Allow) by (apply DE; auto).
      destruct (first_of_some _ pols (Dec false) p Allow Hp Dp) as [b Fb]. destruct b; auto; exfalso; destruct Fb as (l & x & r & E1 & Dx & _);
        apply DE in Dx as (_ & X & _); try discriminate; eapply FI; eauto.
  - intros (l & x & r & E1 & Dx & _). apply DE in Dx as (_ & X & _); [discriminate|eapply FI; eauto].
Qed.
Lemma istio_captured : forall pols x, istio_list pols ->
  (captured_by istio_capf pols true x <-> ap_restricts pols x) /\ (captured_by istio_capf pols false x <-> sidecar_restricts pols x).
Proof using.
  intros pols x [KL _]. unfold captured_by, ap_restricts, sidecar_restricts. split; split.
  - intros (p & Hp & Cf & S). apply captured_bridge in S as [S1 S2]. exists p. split; auto.
    destruct (KL p Hp) as [[E [Ea|Ea]]|E]; unfold istio_capf in Cf; rewrite E in Cf, S2; [auto| |destruct S2; discriminate].
    rewrite Ea in Cf. discriminate.
  - intros (p & Hp & E & Ea & S). exists p. split; auto. unfold istio_capf. rewrite E, Ea. split; auto.
    apply captured_bridge. unfold selects. rewrite E. auto.
  - intros (p & Hp & Cf & S). apply captured_bridge in S as [S1 S2]. exists p. split; auto.
    destruct (KL p Hp) as [[E _]|E]; rewrite E in S2; [discriminate|]. tauto.
  - intros (p & Hp & E & Ea & S). exists p. split; auto. unfold istio_capf. rewrite E. split; auto.
    apply captured_bridge. unfold selects. rewrite E. auto.
Qed.

(** TCP traffic into a pod: denied if some Deny policy matches, otherwise allowed if some Allow policy matches or none
    selects the pod; on the source side Sidecars restrict the pods they select. *)
Theorem C25_istio_tcp : forall pols f, exact_policies pols -> istio_list pols -> (forall p, In p pols -> confined p) -> f_all f = true ->
  let r := layer_conns A LIstio ps pols f in
  forall pt, space pt -> a_tcp pt = true ->
    (is_addr (from pt) \/ member ps (from pt) /\ ~ named_dns (from pt)) -> member ps (to pt) /\ ~ named_dns (to pt) ->
    (pt @ all_allowed r <->
       (~ ap_matches pols Deny pt /\ (ap_matches pols Allow pt \/ ~ ap_restricts pols (to pt))) /\
       (is_addr (from pt) \/ sidecar_matches pols pt \/ ~ sidecar_restricts pols (from pt))).
Proof using K HC.
  intros pols f E KL C F. cbv zeta. intros pt Sp T Hs Hd.
  destruct (exact_layer_ok LIstio pols E) as [O1 O2].
  destruct (layer_conns_spec A _ _ _ _ _ _ _ _ L ps HC LIstio pols f O1 O2 (fun _ => F)) as (_ & _ & _ & _ & M).
  destruct (M pt Sp) as (_ & _ & ->). destruct (istio_verdicts pols pt E KL C Sp) as (V1 & V2 & V3 & V4).
  destruct (istio_captured pols (to pt) KL) as [R1 _]. destruct (istio_captured pols (from pt) KL) as [_ R2].
  unfold layer_allows, layer_in, layer_out, dir_explicit, dir_default, istio_default, anywhere_no_dns, pod. cbv beta iota.
  rewrite T.
  rewrite V1, V2, V3, R1, R2.
  assert (MA : forall x, member ps x -> ~ is_addr x) by (intros [k n|y]; cbn; tauto).
  pose proof (MA (to pt)) as Z1. pose proof (MA (from pt)) as Z2. clear - F Hs Hd Z1 Z2 V4.
  assert (X : true = false <-> False) by (split; [discriminate|tauto]). rewrite X. clear X.
  generalize dependent (first_says (decides a_mem false pt) pols Deny). intros P4 V4.
  assert (X1 : f_all f = true <-> True) by tauto. assert (X2 : true = true <-> True) by tauto. rewrite X1, X2. clear X1 X2 F.
  generalize (ap_matches pols Deny pt) (ap_matches pols Allow pt) (ap_restricts pols (to pt)) (sidecar_matches pols pt) (sidecar_restricts pols (from pt)).
  generalize (exists x, (member ps x /\ ~ named_dns x) /\ ~ captured_by istio_capf pols true x).
  generalize dependent (member ps (to pt)). generalize dependent (member ps (from pt)).
  generalize dependent (is_addr (to pt)). generalize dependent (is_addr (from pt)).
  generalize dependent (named_dns (to pt)). generalize dependent (named_dns (from pt)). intros. tauto.
Qed.

(** TCP traffic from a pod to an IP address: allowed if no Sidecar restricts the pod, or some Sidecar matches. *)
Theorem C25_istio_tcp_to_address : forall pols f, exact_policies pols -> istio_list pols -> (forall p, In p pols -> confined p) -> f_all f = true ->
  let r := layer_conns A LIstio ps pols f in
  forall pt, space pt -> a_tcp pt = true -> member ps (from pt) /\ ~ named_dns (from pt) -> is_addr (to pt) ->
    (pt @ all_allowed r <-> sidecar_matches pols pt \/ ~ sidecar_restricts pols (from pt)).
Proof using K HC.
  intros pols f E KL C F. cbv zeta. intros pt Sp T Hs Hd.
  destruct (exact_layer_ok LIstio pols E) as [O1 O2].
  destruct (layer_conns_spec A _ _ _ _ _ _ _ _ L ps HC LIstio pols f O1 O2 (fun _ => F)) as (_ & _ & _ & _ & M).
  destruct (M pt Sp) as (_ & _ & ->). destruct (istio_verdicts pols pt E KL C Sp) as (_ & _ & V3 & V4).
  destruct (istio_captured pols (from pt) KL) as [_ R2].
  unfold layer_allows, layer_in, layer_out, dir_explicit, dir_default, istio_default, anywhere_no_dns, pod. cbv beta iota.
  rewrite T, V3, R2. assert (X : true = false <-> False) by (split; [discriminate|tauto]). rewrite X. clear X.
  assert (Z2 : ~ is_addr (from pt)) by (destruct Hs as [Hs _]; destruct (from pt); cbn in *; tauto). clear - F Hs Hd Z2 V4. tauto.
Qed.

(** The Istio layer does not restrict non-TCP traffic between pods and IP addresses. *)
Theorem C25_non_tcp_unrestricted : forall pols f, exact_policies pols -> f_all f = true ->
  let r := layer_conns A LIstio ps pols f in
  forall pt, space pt -> a_tcp pt = false ->
    (is_addr (from pt) \/ member ps (from pt) /\ ~ named_dns (from pt)) ->
    (is_addr (to pt) \/ member ps (to pt) /\ ~ named_dns (to pt)) -> pt @ all_allowed r.
Proof using K HC.
  intros pols f E F. cbv zeta. intros pt Sp T Hs Hd.
  destruct (exact_layer_ok LIstio pols E) as [O1 O2].
  destruct (layer_conns_spec A _ _ _ _ _ _ _ _ L ps HC LIstio pols f O1 O2 (fun _ => F)) as (_ & _ & _ & _ & M).
  destruct (M pt Sp) as (_ & _ & ->). split; auto.
  unfold layer_allows, layer_in, layer_out, dir_default, istio_default, anywhere_no_dns. split; right; left; left; tauto.
Qed.

(** ** C26: configurations *)
Definition layers_exact (ls : @layers conns) : Prop := forall n pols, In (n, pols) ls -> exact_policies pols.
Definition has_host_endpoint : Prop := exists x, member ps x /\ named_hep x.

(** All allowed connections: the intersection over the layers; with host endpoints the K8s/Calico layer always takes part. *)
Theorem C26_all_allowed_is_the_intersection : forall ls, layers_exact ls ->
  let f := only_all_allowed in
  forall pt, space pt -> pod_or_ip (from pt) -> pod_or_ip (to pt) ->
    (pt @ all_allowed (config_conns A ps ls f) <->
       (forall n pols, In (n, pols) ls -> pt @ all_allowed (layer_conns A n ps pols f)) /\
       (has_host_endpoint -> lget ls LK8sCalico = None -> pt @ all_allowed (layer_conns A LK8sCalico ps [] f))).
Proof using K HC.
  intros ls E. cbv zeta. intros pt Sp Hs Hd.
  assert (LO : layers_ok A wf (a_safe rest) vis ls) by (intros n pols H; apply exact_layer_ok; eauto).
  destruct (config_all_spec A _ _ _ _ _ _ _ _ L ps HC ls LO) as [_ M]. rewrite M by auto. clear M.
  assert (LS : forall n pols, layer_ok A wf (a_safe rest) vis n true pols /\ layer_ok A wf (a_safe rest) vis n false pols ->
     (pt @ all_allowed (layer_conns A n ps pols only_all_allowed) <-> layer_allows from to a_tcp a_mem ps n pols pt)).
  { intros n pols [O1 O2].
    destruct (layer_conns_spec A _ _ _ _ _ _ _ _ L ps HC n pols only_all_allowed O1 O2 (fun _ => eq_refl)) as (_ & _ & _ & _ & M).
    destruct (M pt Sp) as (_ & _ & ->). cbn. tauto. }
  assert (L0 : layer_ok A wf (a_safe rest) vis LK8sCalico true [] /\ layer_ok A wf (a_safe rest) vis LK8sCalico false []).
  { split; apply layer_ok_nil. }
  pose proof (LS _ _ L0) as LN.
  assert (X : (forall n pols, In (n, pols) ls -> layer_allows from to a_tcp a_mem ps n pols pt) <->
              (forall n pols, In (n, pols) ls -> pt @ all_allowed (layer_conns A n ps pols only_all_allowed))).
  { split; intros H n pols Hn; [apply LS|apply LS]; auto. }
  rewrite X. pose proof (host_eps_bool vis ps HC) as HB. unfold has_host_endpoint. unfold has_hep in HB.
  unfold anywhere, pod_or_ip in *. destruct (pbool (host_eps ps)).
  - destruct (lget ls LK8sCalico) eqn:G.
    + intuition discriminate.
    + rewrite <- LN. assert (HB' : exists x, member ps x /\ named_hep x) by tauto. tauto.
  - assert (HB' : ~ exists x, member ps x /\ named_hep x) by (intros H; apply HB in H; discriminate). tauto.
Qed.

(** Without host endpoints, for every filter: explicitly allowed connections are the allowed ones that some layer
    allows explicitly, so a subset of all allowed connections; denied and captured are unions. *)
Theorem C26_explicit_denied_captured : forall ls f, layers_exact ls -> ~ has_host_endpoint -> (f_allowed f = true -> f_all f = true) ->
  let r := config_conns A ps ls f in
  (forall pt, space pt ->
    (pt @ allowed r <-> f_allowed f = true /\ pt @ all_allowed r /\ exists n pols, In (n, pols) ls /\ pt @ allowed (layer_conns A n ps pols f)) /\
    (pt @ denied r <-> f_denied f = true /\ exists n pols, In (n, pols) ls /\ pt @ denied (layer_conns A n ps pols f))) /\
  (forall x, pt_in x (captured r) <-> exists n pols, In (n, pols) ls /\ pt_in x (captured (layer_conns A n ps pols f))).
Proof using K HC.
  intros ls f E NH Hf. cbv zeta.
  assert (LO : layers_ok A wf (a_safe rest) vis ls) by (intros n pols H; apply exact_layer_ok; eauto).
  destruct (config_nohep_spec A _ _ _ _ _ _ _ _ L ps HC ls f LO NH Hf) as (_ & _ & C & M).
  assert (LS : forall n pols, In (n, pols) ls -> let r := layer_conns A n ps pols f in
     (forall x, pt_in x (captured r) <-> layer_captures n pols x) /\
     forall pt, space pt -> (pt @ allowed r <-> f_allowed f = true /\ layer_allows_explicitly from to a_tcp a_mem ps n pols pt) /\
                            (pt @ denied r <-> f_denied f = true /\ layer_denies a_mem pols pt)).
  { intros n pols Hn. cbv zeta. destruct (LO n pols Hn) as [O1 O2].
    destruct (layer_conns_spec A _ _ _ _ _ _ _ _ L ps HC n pols f O1 O2 Hf) as (_ & X & _ & _ & Y).
    split; auto. intros pt Sp. destruct (Y pt Sp) as (Y1 & Y2 & _). auto. }
  split.
  - intros pt Sp. destruct (M pt Sp) as (_ & M2 & M3). rewrite M2, M3. split.
    + split; intros (F & Q & n & pols & Hn & H); (split; [auto|split; [auto|]]); exists n, pols; (split; [auto|]);
        destruct (LS n pols Hn) as [_ Z]; destruct (Z pt Sp) as [Z1 _]; apply Z1; auto.
    + split; intros (F & n & pols & Hn & H); (split; [auto|]); exists n, pols; (split; [auto|]);
        destruct (LS n pols Hn) as [_ Z]; destruct (Z pt Sp) as [_ Z1]; apply Z1; auto.
  - intros x. rewrite C. split; intros (n & pols & Hn & H); exists n, pols; (split; [auto|]); destruct (LS n pols Hn) as [Z _]; apply Z; auto.
Qed.

(** Denied connections: a connection of a host endpoint is only denied by the K8s/Calico layer. *)
Theorem C26_denied_with_host_endpoints : forall ls, layers_exact ls ->
  let f := only_denied in
  forall pt, space pt ->
    (pt @ denied (config_conns A ps ls f) <->
     exists n pols, In (n, pols) ls /\ pt @ denied (layer_conns A n ps pols f) /\
       (n = LK8sCalico \/ ~ ((member ps (from pt) /\ named_hep (from pt)) \/ (member ps (to pt) /\ named_hep (to pt))))).
Proof using K HC.
  intros ls E. cbv zeta. intros pt Sp.
  assert (LO : layers_ok A wf (a_safe rest) vis ls) by (intros n pols H; apply exact_layer_ok; eauto).
  destruct (config_denied_spec A _ _ _ _ _ _ _ _ L ps HC ls LO) as [_ M]. rewrite M by auto. clear M.
  split; intros (n & pols & Hn & H1 & H2); exists n, pols; (split; [auto|]); destruct (LO n pols Hn) as [O1 O2];
    destruct (layer_conns_spec A _ _ _ _ _ _ _ _ L ps HC n pols only_denied O1 O2) as (_ & _ & _ & _ & Y); try discriminate;
    destruct (Y pt Sp) as (_ & Y2 & _); (split; [apply Y2; auto|exact H2]).
Qed.

(** ** C28: connections that can never occur *)
Definition pick (v : val) : Z := match v with VI (i :: _) => lo i | _ => 0%Z end.
Lemma pick_mem : forall d, val_mem (pick (dom d)) (dom d).
Proof using K.
  intros d. pose proof (ok_doms _ _ _ _ _ _ K d) as H. destruct (dom d) as [[|i l]|co l]; cbn [pick val_mem] in *.
  - tauto.
  - destruct H as [[H _] _]. exists i. split; [left; auto|]. lia.
  - destruct H as [-> ->]. intros H'. apply mem_nil in H'. auto.
Qed.
Lemma some_space : forall s d, mem s D -> mem d D -> exists pt, space pt /\ from pt = point_of_index reg s /\ to pt = point_of_index reg d.
Proof using K.
  intros s d Hs Hd. exists (fun e => if Nat.eqb e d_src then s else if Nat.eqb e d_dst then d else pick (dom e)). split; [|split; reflexivity].
  intros e. cbn. destruct (Nat.eqb_spec e d_src) as [->|]; [rewrite (ok_src _ _ _ _ _ _ K); auto|].
  destruct (Nat.eqb_spec e d_dst) as [->|]; [rewrite (ok_dst _ _ _ _ _ _ K); auto|]. apply pick_mem.
Qed.

Lemma pod_not_addr : forall z, (min_pod_index <= z)%Z -> ~ is_addr (point_of_index reg z).
Proof.
  intros z Hz. assert (K1 : (max_ipv4_index < min_pod_index)%Z) by (vm_compute; reflexivity).
  assert (K2 : (max_ipv6_index < min_pod_index)%Z) by (vm_compute; reflexivity).
  unfold point_of_index. destruct (Z.leb_spec z max_ipv4_index) as [H|H]; [exfalso; apply (Z.lt_irrefl z); eauto using Z.le_lt_trans, Z.lt_le_trans|].
  destruct (Z.leb_spec z max_ipv6_index) as [H'|H']; [exfalso; apply (Z.lt_irrefl z); eauto using Z.le_lt_trans, Z.lt_le_trans|].
  destruct (nth_error _ _) as [[k n|l]|]; cbn; [tauto| |]; unfold vpos; vm_compute; intros [[H1 H2]|[H1 H2]]; auto.
Qed.
Theorem C28_impossible_connections_removed : forall x, regular x ->
  forall pt, space pt ->
    (pt @ filter_by_peer_types A ps x <->
       pt @ x /\
       ~ (is_addr (from pt) /\ is_addr (to pt)) /\                                    (* IP to IP *)
       ~ (is_addr (from pt) /\ member ps (to pt) /\ named_dns (to pt)) /\             (* IP to DNS *)
       ~ (member ps (from pt) /\ named_dns (from pt))).                               (* DNS to anything *)
Proof using K HC.
  intros x R. pose proof R as [W _].
  assert (A0 : is_addr (point_of_index reg 0)) by (vm_compute; left; split; discriminate).
  assert (Hp : mem 0 D) by (apply (ok_D_addr _ _ _ _ _ _ K); left; vm_compute; split; discriminate).
  destruct (ok_D_pod _ _ _ _ _ _ K) as (m & Hq & Hm).
  destruct (all_dns_spec vis ps HC) as [DK _]. destruct (all_ips_set_spec vis) as [IK _].
  destruct (filter_types_spec A _ _ _ _ _ _ _ _ L ps HC x W) as [_ M].
  - apply regular_solid; auto. apply (l_rect_ok _ _ _ _ _ _ _ _ _ L); cbn [opt]; auto. apply pok_union; auto.
  - destruct (some_space 0 0 Hp Hp) as (pt & Sp & E1 & E2). exists pt. rewrite E1, E2. auto.
  - destruct (some_space m 0 Hq Hp) as (pt & Sp & E1 & E2). exists pt. rewrite E1. split; auto. apply pod_not_addr; auto.
  - intros pt Sp. rewrite M by auto. tauto.
Qed.
End WithPeers.
End Cubes.

(** ** C22: policy ordering within a layer *)
(** The order of a policy: 1000 for K8s policies, the order field for Calico policies, [None] (= infinity) if missing. *)
Definition rank (p : policy) : option Z := if ptype_eqb (p_kind p) TK8s then Some 1000%Z else p_ord p.
Definition rank_le (a b : option Z) : Prop := match a, b with _, None => True | None, Some _ => False | Some i, Some j => (i <= j)%Z end.

(** The policies are added one by one; additions that raise an exception are skipped. *)
Theorem C22_sorted_by_order : forall added i j p q,
  let l := layer_list (add_all pcont_init added) LK8sCalico in
  i <= j -> nth_error l i = Some p -> nth_error l j = Some q -> rank_le (rank p) (rank q).
Proof.
  intros added i j p q l Hij Hp Hq.
  pose proof (inv_add_all added _ inv_init) as I.
  assert (KO : forall x, In x l -> of_layer LK8sCalico x = true).
  { intros x Hx. unfold l in Hx. apply (Permutation_in _ (inv_lists _ I LK8sCalico)) in Hx. apply filter_In in Hx. tauto. }
  assert (R : forall x, In x l -> get_order x = rank x).
  { intros x Hx. specialize (KO x Hx). unfold of_layer in KO. unfold get_order, rank. destruct (p_kind x); cbn in *; auto; discriminate. }
  pose proof (sorted_nth l i j p q (inv_order _ I) Hij Hp Hq) as B.
  rewrite (R p), (R q) in B by (eapply nth_error_In; eauto). unfold before in B. unfold rank_le. destruct (rank p), (rank q); auto.
Qed.
Theorem C22_layer_holds_its_policies : forall added n,
  let c := @add_all conns pcont_init added in
  Permutation (layer_list c n) (filter (of_layer n) (map snd (policies c))).
Proof. intros added n. cbv zeta. apply (inv_lists _ (inv_add_all added _ inv_init)). Qed.

(** In the Istio layer Deny authorization policies precede Allow ones, if Sidecars are added after all authorization
    policies, which is what PoliciesFinder.parse_policies_in_parse_queue does. *)
Theorem C22_deny_before_allow : forall aps sidecars : list policy,
  (forall p, In p aps -> p_kind p <> TSidecar) -> (forall p, In p sidecars -> p_kind p = TSidecar) ->
  let l := layer_list (add_all pcont_init (aps ++ sidecars)) LIstio in
  forall i j p q, i < j -> nth_error l i = Some p -> nth_error l j = Some q -> p_kind p = TIstioAP -> p_kind q = TIstioAP ->
  p_action q = Deny -> p_action p = Deny.
Proof.
  intros aps sc H1 H2. cbv zeta. intros i j p q Hij Hp Hq Kp Kq Dq.
  apply nth_error_split in Hp as (l1 & l2 & E & Ln).
  pose proof (sidecars_after aps sc H1 H2) as X. apply (X l1 p l2 q E); auto.
  - rewrite E in Hq. rewrite nth_error_app2 in Hq by lia. destruct (j - Datatypes.length l1) as [|k] eqn:Ek; [lia|].
    cbn in Hq. eapply nth_error_In; eauto.
  - unfold is_ap. rewrite Kp. auto.
  - unfold is_ap. rewrite Kq. auto.
Qed.
(** For other addition orders the statement is false: after Allow and a Sidecar, a Deny policy is put last. *)
Definition mk_ap (name : string) (a : action) (rs : list rule) (sel : peerset) : policy := Policy name "ns" TIstioAP true false sel rs [] None a.
Definition mk_sidecar (name : string) (rs : list rule) (sel : peerset) : policy := Policy name "ns" TSidecar false true sel [] rs None Allow.
Theorem C22_deny_before_allow_any_order_refuted :
  ~ forall added i j p q, let l := layer_list (@add_all conns pcont_init added) LIstio in
    i < j -> nth_error l i = Some p -> nth_error l j = Some q -> p_kind p = TIstioAP -> p_kind q = TIstioAP ->
    p_action q = Deny -> p_action p = Deny.
Proof.
  intros H. specialize (H [mk_ap "allow" Allow [] [pa]; mk_sidecar "s" [] [pa]; mk_ap "deny" Deny [] [pa]] 0 2
    (mk_ap "allow" Allow [] [pa]) (mk_ap "deny" Deny [] [pa])). cbv zeta in H.
  assert (X : Allow = Deny) by (apply H; [lia|reflexivity..]). discriminate.
Qed.

(** ** C27: the policy container *)
Theorem C27_invariants : forall added,
  let c := @add_all conns pcont_init added in
  (* keyed uniquely by full name and kind, no unknown kind *)
  NoDup (map fst (policies c)) /\
  (forall k p, In (k, p) (policies c) -> k = (full_name p, p_kind p) /\ p_kind p <> TUnknown) /\
  (* each policy sits in the layer of its kind, once, and in no other layer; layers hold nothing else *)
  NoDup (map fst (lays c)) /\
  (forall n p, In p (layer_list c n) <-> In p (map snd (policies c)) /\ layer_of_type (p_kind p) = Some n) /\
  (forall n, NoDup (layer_list c n)) /\
  (* the K8s/Calico layer is present exactly when no other layer was created or a policy was added to it *)
  (lget (lays c) LK8sCalico <> None <->
     (forall p n, In p (map snd (policies c)) -> layer_of_type (p_kind p) = Some n -> n = LK8sCalico)
     \/ exists p, In p (map snd (policies c)) /\ layer_of_type (p_kind p) = Some LK8sCalico).
Proof.
  intros added. cbv zeta. set (c := add_all pcont_init added).
  pose proof (inv_add_all added _ inv_init : inv c) as I.
  assert (OL : forall n (p : policy), of_layer n p = true <-> layer_of_type (p_kind p) = Some n).
  { intros n p. unfold of_layer. destruct (layer_of_type (p_kind p)) as [m|]; [|split; discriminate].
    rewrite lname_eqb_eq. split; congruence. }
  assert (IN : forall n (p : policy), In p (layer_list c n) <-> In p (map snd (policies c)) /\ layer_of_type (p_kind p) = Some n).
  { intros n p. rewrite <- OL, <- filter_In. split; apply Permutation_in; [|apply Permutation_sym]; apply (inv_lists _ I). }
  split; [apply (inv_keys _ I)|]. split; [apply (inv_names _ I)|]. split; [apply (inv_layers _ I)|]. split; [exact IN|].
  split.
  { intros n. apply (Permutation_NoDup (Permutation_sym (inv_lists _ I n))). apply NoDup_filter.
    pose proof (inv_keys _ I) as NK. pose proof (inv_names _ I) as NM. revert NK NM. generalize (policies c). clear.
    induction l as [|[k p] l IH]; intros NK NM; [constructor|]. cbn [map snd fst] in *. inversion NK as [|? ? N1 N2]; subst. constructor.
    - intros H. apply in_map_iff in H as ([k' p'] & E & H). cbn in E. subst p'. apply N1.
      destruct (NM k p) as [E1 _]; [left; auto|]. destruct (NM k' p) as [E2 _]; [right; auto|].
      rewrite E1, <- E2. apply (in_map fst _ _ H).
    - apply IH; auto. intros k' p' H. apply NM. right. auto. }
  split.
  - destruct (lget (lays c) LK8sCalico) as [l|] eqn:G; [intros _|congruence]. destruct l as [|p l].
    + left. intros p n Hp Hn. apply OL in Hn. destruct (inv_empty _ I _ G) as [_ X]. rewrite (X p n Hp) in Hn. discriminate.
    + right. exists p. apply IN. unfold layer_list. rewrite G. left. auto.
  - intros H G. destruct (inv_present _ I G) as (p & n & Hp & Hn). apply OL in Hn.
    assert (X : exists q, In q (layer_list c LK8sCalico)).
    { destruct H as [H|(q & Hq)]; [exists p|exists q]; apply IN; auto. rewrite <- (H p n Hp Hn). auto. }
    destruct X as [q Hq]. unfold layer_list in Hq. rewrite G in Hq. destruct Hq.
Qed.
Lemma key_dec : forall a b : string * ptype, {a = b} + {a <> b}.
Proof. repeat decide equality. Qed.
(** An addition is rejected (an exception, nothing changes) exactly for an unknown kind or a key in use; otherwise
    exactly that policy is added. *)
Theorem C27_append : forall added p,
  let c := @add_all conns pcont_init added in
  (append_policy c p = None <-> p_kind p = TUnknown \/ exists q, In q (map snd (policies c)) /\ full_name q = full_name p /\ p_kind q = p_kind p) /\
  (forall c', append_policy c p = Some c' -> map snd (policies c') = map snd (policies c) ++ [p]).
Proof.
  intros added p. cbv zeta. set (c := add_all pcont_init added).
  pose proof (inv_add_all added _ inv_init : inv c) as I. pose proof (append_accepts c p) as AA. split.
  - assert (IK : In (full_name p, p_kind p) (map fst (policies c)) <-> exists q, In q (map snd (policies c)) /\ full_name q = full_name p /\ p_kind q = p_kind p).
    { split.
      - intros H. apply in_map_iff in H as ([k q] & E & H). destruct (inv_names _ I _ _ H) as [E2 _]. cbn in E. exists q.
        split; [apply (in_map snd _ _ H)|]. rewrite E in E2. injection E2 as -> ->. auto.
      - intros (q & H & E1 & E2). apply in_map_iff in H as ([k q'] & E & H). cbn in E. subst q'.
        destruct (inv_names _ I _ _ H) as [E3 _]. rewrite <- E1, <- E2, <- E3. apply (in_map fst _ _ H). }
    rewrite <- IK. split.
    + intros E. destruct (ptype_eqb (p_kind p) TUnknown) eqn:EU; [left; apply ptype_eqb_eq; auto|].
      right. destruct (in_dec key_dec (full_name p, p_kind p) (map fst (policies c))) as [H|H]; auto.
      exfalso. assert (X : exists c', append_policy c p = Some c').
      { apply AA. split; auto. intros E2. rewrite E2 in EU. discriminate. }
      destruct X as [c' X]. congruence.
    + intros H. destruct (append_policy c p) as [c'|] eqn:E; auto. exfalso.
      destruct (proj1 AA (ex_intro _ c' eq_refl)) as [N1 N2]. tauto.
  - intros c' E. destruct (inv_append c p c' I E) as [_ ->]. rewrite map_app. reflexivity.
Qed.

(** ** Concrete cases *)
(** Connections between the given peers, over TCP ([Some true]), not over TCP ([Some false]) or any. *)
Definition rl (a : action) (s d : peerset) (pr : option bool) : rule := Rule a [] [] (c_rect ex_ops (Some s) (Some d) pr).
Local Opaque all_ips.
Definition ev : peerset := [pa; pb; pc; Block all_ips].
Ltac pok_tac := split; [intros l Hl; cbn in Hl; intuition (try discriminate); subst; try apply all_ips_ipset;
    match goal with H : Block _ = Block _ |- _ => injection H as <-; apply all_ips_ipset end
  |intros k n Hn; cbn in Hn; unfold pa, pb, pc, hep, dns in *; intuition (try discriminate);
   match goal with H : Named _ _ = Named _ _ |- _ => injection H as <- <-; cbn; unfold pa, pb, pc, hep, dns; auto end].
Lemma pok_ev : pok ex_reg ev.  Proof. pok_tac. Qed.
Lemma pok_a : pok ex_reg [pa]. Proof. pok_tac. Qed.
Lemma pok_b : pok ex_reg [pb]. Proof. pok_tac. Qed.
Lemma pok_c : pok ex_reg [pc]. Proof. pok_tac. Qed.
Local Opaque pok.
Definition ex_laws := cube_laws std_dom std_rest ex_reg ex_reg std_peers [Ivl 0 255] ex_alg.
Notation ex_regular := (regular std_dom std_rest).
Notation ex_space := (a_space std_dom).

Lemma rl_regular : forall a s d pr, pok ex_reg s -> pok ex_reg d -> ex_regular (r_props (rl a s d pr)).
Proof.
  intros a s d pr Hs Hd. split; [apply (l_rect_ok _ _ _ _ _ _ _ _ _ ex_laws); auto|].
  destruct (make_props_cases std_dom std_rest ex_reg ex_reg std_peers [Ivl 0 255] ex_alg (Some s) (Some d) pr Hs Hd) as [H|H]; auto.
Qed.
Lemma rl_mem : forall a s d pr pt, pok ex_reg s -> pok ex_reg d -> ex_space pt ->
  (pt @ r_props (rl a s d pr) <-> pt_in (a_src ex_reg pt) s /\ pt_in (a_dst ex_reg pt) d /\ opt (eq (a_tcp pt)) pr).
Proof. intros a s d pr pt Hs Hd Sp. apply (l_rect _ _ _ _ _ _ _ _ _ ex_laws); auto. Qed.
Lemma ex_conn_space : forall s d proto port, mem s std_peers -> mem d std_peers -> (0 <= proto <= 255)%Z -> (1 <= port <= 65535)%Z ->
  ex_space (ex_conn s d proto port).
Proof.
  intros s d proto port Hs Hd Hp Hq e.
  do 3 (destruct e as [|e]; [cbn -[std_peers Z.le]; auto; try (exists (Ivl 0 255); split; [left; auto|cbn [lo hi]; lia])|]).
  do 2 (destruct e as [|e]; [exists (Ivl 1 65535); split; [left; auto|cbn [lo hi ex_conn]; lia]|]).
  destruct e as [|e]; [exists (Ivl 0 8); split; [left; auto|cbn [lo hi ex_conn]; lia]|].
  destruct e as [|e]; [intros H; apply mem_nil in H; auto|].
  destruct e as [|e]; [intros H; apply mem_nil in H; auto|].
  destruct e as [|e]; [exists (Ivl 0 254); split; [left; auto|cbn [lo hi ex_conn]; lia]|].
  destruct e as [|e]; [exists (Ivl 0 255); split; [left; auto|cbn [lo hi ex_conn]; lia]|].
  exists (Ivl 0 100000); split; [left; auto|cbn [lo hi ex_conn]; lia].
Qed.
Lemma peers_mem : forall z, existsb (fun i => Z.leb (lo i) z && Z.leb z (hi i)) std_peers = true -> mem z std_peers.
Proof. intros z H. apply existsb_exists in H as (i & Hi & H). exists i. split; auto. apply andb_true_iff in H as [H1 H2]. lia. Qed.
Ltac space_tac := apply ex_conn_space; [apply peers_mem; vm_compute; reflexivity..| |]; lia.

Lemma src_of : forall s d pr po, a_src ex_reg (ex_conn s d pr po) = point_of_index ex_reg s.
Proof. reflexivity. Qed.
Lemma dst_of : forall s d pr po, a_dst ex_reg (ex_conn s d pr po) = point_of_index ex_reg d.
Proof. reflexivity. Qed.
Lemma tcp_of : forall s d pr po, a_tcp (ex_conn s d pr po) = (pr =? 6)%Z.
Proof. reflexivity. Qed.
Lemma point_a : point_of_index ex_reg (idx pa) = PN 0 "ns/a". Proof. vm_compute. reflexivity. Qed.
Lemma point_b : point_of_index ex_reg (idx pb) = PN 0 "ns/b". Proof. vm_compute. reflexivity. Qed.
Lemma point_c : point_of_index ex_reg (idx pc) = PN 0 "ns/c". Proof. vm_compute. reflexivity. Qed.
Lemma point_hep : point_of_index ex_reg (idx hep) = PN 1 "hep". Proof. vm_compute. reflexivity. Qed.
Lemma point_dns : point_of_index ex_reg (idx dns) = PN 2 "www.ibm.com". Proof. vm_compute. reflexivity. Qed.
Local Opaque point_of_index idx a_mem.
Ltac pt_simpl := rewrite ?src_of, ?dst_of, ?tcp_of, ?point_a, ?point_b, ?point_c, ?point_hep, ?point_dns in *;
  cbn [pt_in In member is_addr named_hep named_dns opt Z.eqb Pos.eqb ev] in *; unfold pa, pb, pc, hep, dns in *.
Ltac yes := apply (fun a s d pr pt H1 H2 H3 => proj2 (rl_mem a s d pr pt H1 H2 H3)); [first [exact pok_a|exact pok_b|exact pok_c|exact pok_ev]..|space_tac|]; pt_simpl; repeat split; auto 8.
Ltac pokt := first [exact pok_a|exact pok_b|exact pok_c|exact pok_ev].
Ltac no H := match type of H with a_mem ?pt (r_props (rl ?a ?s ?d ?pr)) =>
  let P1 := fresh in let P2 := fresh in let S := fresh in
  assert (P1 : pok ex_reg s) by pokt; assert (P2 : pok ex_reg d) by pokt; assert (S : ex_space pt) by space_tac;
  let N1 := fresh in let N2 := fresh in let N3 := fresh in
  destruct (proj1 (rl_mem a s d pr pt P1 P2 S) H) as (N1 & N2 & N3); clear P1 P2 S H; pt_simpl; intuition discriminate end.

(** A Calico policy with a Pass rule none of whose rules is shadowed: deny TCP from b, pass the rest of TCP, allow everything. *)
Definition ex_calico : policy := Policy "c" "ns" TCalico true false [pa]
  [rl Deny [pb] [pa] (Some true); rl Pass ev [pa] (Some true); rl Log ev [pa] None; rl Allow ev [pa] None] [] (Some 10%Z) Allow.
Lemma ex_calico_wf : policy_wf std_dom std_rest ex_reg ex_calico.
Proof.
  apply policy_wf_regular; [|exact pok_a]. intros r Hr. cbn [ex_calico p_ingress p_egress app In] in Hr.
  destruct Hr as [<-|[<-|[<-|[<-|[]]]]]; apply rl_regular; first [exact pok_a|exact pok_b|exact pok_ev].
Qed.
Lemma ex_calico_exact : exact_rules std_dom (rules_of ex_calico true).
Proof.
  right. intros pre r post E NL. cbn [rules_of ex_calico p_ingress] in E.
  destruct pre as [|r1 pre]; [|destruct pre as [|r2 pre]; [|destruct pre as [|r3 pre]; [|destruct pre as [|r4 pre]; [|destruct pre; discriminate]]]]; injection E; intros; subst.
  - exists (ex_conn (idx pb) (idx pa) 6 80). split; [space_tac|]. split; [|intros q []].
    yes.
  - exists (ex_conn (idx pc) (idx pa) 6 80). split; [space_tac|]. split.
    + yes.
    + intros q [<-|[]] _ H. no H.
  - exfalso. apply NL. reflexivity.
  - exists (ex_conn (idx pb) (idx pa) 17 80). split; [space_tac|]. split.
    + yes.
    + intros q [<-|[<-|[<-|[]]]] NLq H; cbn [rl r_action] in NLq; try congruence.
      * no H.
      * no H.
Qed.
Example ex_C20 : policy_wf std_dom std_rest ex_reg ex_calico /\ is_calico ex_calico /\ exact_rules std_dom (rules_of ex_calico true)
  /\ first_match (rules_of ex_calico true) (ex_conn (idx pc) (idx pa) 6 80) Pass.
Proof.
  split; [exact ex_calico_wf|]. split; [left; auto|]. split; [exact ex_calico_exact|].
  exists [rl Deny [pb] [pa] (Some true)], (rl Pass ev [pa] (Some true)), [rl Log ev [pa] None; rl Allow ev [pa] None].
  split; [reflexivity|]. split; [reflexivity|]. split; [discriminate|]. split.
  - yes.
  - intros q [<-|[]] _ H. no H.
Qed.

(** Finding F1 at the level of Calico policies: with a Pass rule and an entirely shadowed rule the Allow set is a "true"
    object, different from the empty set, although no rule allows anything. *)
Definition f1_policy : policy := Policy "c" "ns" TCalico true false [pa]
  [Rule Deny [] [] (tcp_conns None (Some [pa]) (Some (80, 80)%Z)); Rule Pass [] [] (tcp_conns (Some [pb]) (Some [pa]) (Some (443, 443)%Z));
   Rule Allow [] [] (tcp_conns None (Some [pa]) (Some (80, 80)%Z))] [] None Allow.
Theorem C20_emptiness_with_pass_refuted :
  (forall r, In r (p_ingress f1_policy) -> hbool (r_props r) = true) /\
  (forall pt, ~ first_match (rules_of f1_policy true) pt Allow) /\
  hbool (allowed (policy_conns ex_ops f1_policy true)) = true /\
  c_eqb ex_ops (allowed (policy_conns ex_ops f1_policy true)) (c_empty ex_ops) = false.
Proof.
  split; [intros r [<-|[<-|[<-|[]]]]; vm_compute; reflexivity|]. split.
  - intros pt (pre & r & post & E & Ea & _ & M & N). cbn [rules_of f1_policy p_ingress] in E.
    set (x80 := tcp_conns None (Some [pa]) (Some (80, 80)%Z)) in E. set (x443 := tcp_conns (Some [pb]) (Some [pa]) (Some (443, 443)%Z)) in E.
    clearbody x80 x443.
    destruct pre as [|r1 [|r2 [|r3 [|r4 pre]]]]; try discriminate; injection E; intros; subst; try discriminate.
    apply (N (Rule Deny [] [] x80)); [left; auto|discriminate|exact M].
  - split; vm_compute; reflexivity.
Qed.

(** K8s policies: pod a accepts TCP from b, and anything but TCP from c; pod b accepts nothing. *)
Definition ex_k8s : policy := Policy "k" "ns" TK8s true false [pa] [rl Allow [pb] [pa] (Some true); rl Allow [pc] [pa] (Some false)] [] None Allow.
Definition ex_k8s_b : policy := Policy "kb" "ns" TK8s true false [pb] [] [] None Allow.
Definition ex_calico2 : policy := Policy "c2" "ns" TCalico true false [pa] [rl Deny [pb] [pa] (Some true)] [] (Some 10%Z) Allow.
Ltac wf_tac := apply policy_wf_regular; [intros ?r Hr; cbn in Hr; repeat (destruct Hr as [<-|Hr]; [apply rl_regular; pokt|]); destruct Hr|pokt].
Lemma ex_k8s_wf : policy_wf std_dom std_rest ex_reg ex_k8s. Proof. wf_tac. Qed.
Example ex_C21 : policy_wf std_dom std_rest ex_reg ex_k8s /\ some_rule (rules_of ex_k8s true) (ex_conn (idx pc) (idx pa) 17 53)
  /\ ~ some_rule (rules_of ex_k8s true) (ex_conn (idx pc) (idx pa) 6 80).
Proof.
  split; [exact ex_k8s_wf|]. split.
  - exists (rl Allow [pc] [pa] (Some false)). split; [right; left; auto|yes].
  - intros (r & [<-|[<-|[]]] & H); no H.
Qed.

Definition ex_peers : peerset := [pa; pb; pc; hep; dns].
Lemma ex_container : container ex_reg ex_peers.
Proof. intros p H. split; auto. cbn in H. intuition (subst; reflexivity). Qed.
Definition ex_pols : list policy := [ex_calico2; ex_k8s; ex_k8s_b].
Lemma ex_pols_exact : exact_policies std_dom std_rest ex_reg ex_pols.
Proof.
  split.
  - intros p [<-|[<-|[<-|[]]]]; wf_tac.
  - left. intros p [<-|[<-|[<-|[]]]] C r Hr; cbn in Hr; repeat (destruct Hr as [<-|Hr]; [discriminate|]); destruct Hr.
Qed.
Lemma rl_to : forall a s d pr pt, pok ex_reg s -> pok ex_reg d -> ex_space pt -> pt @ r_props (rl a s d pr) ->
  pt_in (a_src ex_reg pt) s /\ pt_in (a_dst ex_reg pt) d.
Proof. intros a s d pr pt Hs Hd Sp H. destruct (proj1 (rl_mem a s d pr pt Hs Hd Sp) H) as (H1 & H2 & _). auto. Qed.
Ltac confined_tac := split; [|split];
  [intros ?r ?pt Sp Hr H; cbn in Hr; repeat (destruct Hr as [<-|Hr]; [refine (proj2 (rl_to _ _ _ _ _ _ _ Sp H)); pokt|]); destruct Hr
  |intros ?r ?pt Sp Hr H; cbn in Hr; repeat (destruct Hr as [<-|Hr]; [refine (proj1 (rl_to _ _ _ _ _ _ _ Sp H)); pokt|]); destruct Hr
  |intros [?k ?n|?y] Hx; cbn [pt_in p_selected] in Hx; [cbn in Hx |- *; tauto|destruct Hx as (l & Hl & _); cbn in Hl; intuition discriminate]].
Lemma ex_pols_confined : forall p, In p ex_pols -> confined std_dom ex_reg ex_peers p.
Proof. intros p [<-|[<-|[<-|[]]]]; confined_tac. Qed.

Lemma ex_contains : forall x pt, a_ok std_dom std_rest x -> (contains (val_ops std_dom) pt x = true <-> pt @ x).
Proof.
  intros x pt W. apply (contains_spec (val_ops std_dom) val_mem (val_valid std_dom) (val_laws std_dom (ok_doms _ _ _ _ _ _ ex_alg)) false std_all); auto.
  apply (ok_nodup _ _ _ _ _ _ ex_alg).
Qed.
Lemma ex_layer_wf : forall n ps pols, container ex_reg ps -> exact_policies std_dom std_rest ex_reg pols ->
  a_ok std_dom std_rest (all_allowed (layer_conns ex_ops n ps pols only_all_allowed)).
Proof.
  intros n ps pols HC E. destruct (exact_layer_ok std_dom std_rest ex_reg ex_reg std_peers [Ivl 0 255] ex_alg n pols E) as [O1 O2].
  destruct (layer_conns_spec ex_ops _ _ _ _ _ _ _ _ ex_laws ps HC n pols only_all_allowed O1 O2 (fun _ => eq_refl)) as (_ & _ & (_ & _ & H) & _).
  exact H.
Qed.
(** UDP from c to a is allowed, TCP from b to a denied by the first policy although the second allows it. *)
Example ex_C24 : exact_policies std_dom std_rest ex_reg ex_pols /\ (forall p, In p ex_pols -> confined std_dom ex_reg ex_peers p) /\
  let x := all_allowed (layer_conns ex_ops LK8sCalico ex_peers ex_pols only_all_allowed) in
  contains (val_ops std_dom) (ex_conn (idx pc) (idx pa) 17 53) x = true /\
  contains (val_ops std_dom) (ex_conn (idx pb) (idx pa) 6 80) x = false /\
  contains (val_ops std_dom) (ex_conn (idx pa) (idx pb) 6 80) x = false /\
  contains (val_ops std_dom) (ex_conn (idx pa) (idx pc) 6 80) x = true.
Proof. split; [exact ex_pols_exact|]. split; [exact ex_pols_confined|]. repeat split; vm_compute; reflexivity. Qed.

(** Istio: Deny b -> a, Allow TCP from b and c to a, a Sidecar letting c reach a only. *)
Definition ap_deny : policy := mk_ap "deny" Deny [rl Deny [pb] [pa] (Some true)] [pa].
Definition ap_allow : policy := mk_ap "allow" Allow [rl Allow ev [pa] (Some true)] [pa].
Definition sc_c : policy := mk_sidecar "sc" [rl Allow [pc] [pa] None] [pc].
Definition ex_istio : list policy := layer_list (add_all pcont_init [ap_allow; ap_deny; sc_c]) LIstio.
Lemma ex_istio_eq : ex_istio = [ap_deny; ap_allow; sc_c]. Proof. reflexivity. Qed.
Lemma ex_istio_exact : exact_policies std_dom std_rest ex_reg ex_istio.
Proof.
  rewrite ex_istio_eq. split.
  - intros p [<-|[<-|[<-|[]]]]; wf_tac.
  - left. intros p [<-|[<-|[<-|[]]]] C; destruct C as [C|[C|C]]; discriminate.
Qed.
Example ex_C25 : exact_policies std_dom std_rest ex_reg ex_istio /\ istio_list ex_istio /\
  (forall p, In p ex_istio -> confined std_dom ex_reg ex_peers p) /\
  let x := all_allowed (layer_conns ex_ops LIstio ex_peers ex_istio only_all_allowed) in
  contains (val_ops std_dom) (ex_conn (idx pb) (idx pa) 6 80) x = false /\      (* Deny wins *)
  contains (val_ops std_dom) (ex_conn (idx pc) (idx pa) 6 80) x = true /\       (* Allow matches *)
  contains (val_ops std_dom) (ex_conn (idx pb) (idx pa) 17 80) x = true /\      (* not TCP *)
  contains (val_ops std_dom) (ex_conn (idx pa) (idx pc) 6 80) x = true /\       (* c not selected *)
  contains (val_ops std_dom) (ex_conn (idx pc) (idx pb) 6 80) x = false /\     (* the Sidecar *)
  contains (val_ops std_dom) (ex_conn 0 (idx pb) 6 80) x = true.
Proof.
  split; [exact ex_istio_exact|]. split; [split|split].
  - rewrite ex_istio_eq. intros p [<-|[<-|[<-|[]]]]; [left|left|right]; cbn; auto.
  - apply (sidecars_after [ap_allow; ap_deny] [sc_c]); intros p H; cbn in H; intuition (subst; try discriminate; auto).
  - rewrite ex_istio_eq. intros p [<-|[<-|[<-|[]]]]; confined_tac.
  - repeat split; vm_compute; reflexivity.
Qed.

(** Findings.  With an Allow policy and a Sidecar already in the layer, a Deny policy added later loses against the
    Allow policy (F5). *)
Definition late_deny : list policy := layer_list (add_all pcont_init [ap_allow; sc_c; ap_deny]) LIstio.
Theorem C25_late_deny_refuted :
  exists pt, ex_space pt /\ a_tcp pt = true /\ ap_matches ex_reg late_deny Deny pt /\
    pt @ all_allowed (layer_conns ex_ops LIstio ex_peers late_deny only_all_allowed).
Proof.
  exists (ex_conn (idx pb) (idx pa) 6 80). split; [space_tac|]. split; [reflexivity|]. split.
  - exists ap_deny. split; [vm_compute; auto|]. split; [reflexivity|]. split; [reflexivity|]. split; [pt_simpl; cbn; auto|].
    exists (rl Deny [pb] [pa] (Some true)). split; [left; auto|yes].
  - apply ex_contains; [|vm_compute; reflexivity].
    assert (E : exact_policies std_dom std_rest ex_reg late_deny).
    { change late_deny with [ap_allow; sc_c; ap_deny]. split.
      - intros p [<-|[<-|[<-|[]]]]; wf_tac.
      - left. intros p [<-|[<-|[<-|[]]]] C; destruct C as [C|[C|C]]; discriminate. }
    exact (ex_layer_wf LIstio ex_peers late_deny ex_container E).
Qed.
(** When every pod is selected by an Allow policy, TCP connections from pods to DNS entries are dropped, although no
    policy selects the DNS entry and the source is not restricted (F27). *)
Definition ap_all : policy := mk_ap "all" Allow [rl Allow ev [pa; pb; pc] (Some true)] [pa; pb; pc].
Lemma pok_abc : pok ex_reg [pa; pb; pc]. Proof. pok_tac. Qed.
Theorem C25_dns_refuted :
  let ps := [pa; pb; pc; dns] in
  exists pt, ex_space pt /\ a_tcp pt = true /\ member ps (a_src ex_reg pt) /\ member ps (a_dst ex_reg pt) /\ named_dns (a_dst ex_reg pt) /\
    ~ ap_matches ex_reg [ap_all] Deny pt /\ ~ ap_restricts [ap_all] (a_dst ex_reg pt) /\ ~ sidecar_restricts [ap_all] (a_src ex_reg pt) /\
    ~ pt @ all_allowed (layer_conns ex_ops LIstio ps [ap_all] only_all_allowed) /\
    (* with one more pod it would be allowed *)
    contains (val_ops std_dom) pt (all_allowed (layer_conns ex_ops LIstio (hep :: ps) [ap_all] only_all_allowed)) = true.
Proof.
  cbv zeta. exists (ex_conn (idx pa) (idx dns) 6 80). split; [space_tac|]. split; [reflexivity|].
  split; [pt_simpl; auto|]. split; [pt_simpl; auto|]. split; [pt_simpl; auto|].
  split; [intros (p & [<-|[]] & _ & E & _); discriminate|].
  split; [intros (p & [<-|[]] & _ & _ & H); pt_simpl; cbn in H; unfold pa, pb, pc in H; intuition discriminate|].
  split; [intros (p & [<-|[]] & E & _); discriminate|]. split; [|vm_compute; reflexivity].
  assert (HC : container ex_reg [pa; pb; pc; dns]).
  { intros p H. cbn in H. cbn. unfold pa, pb, pc, hep, dns in *. intuition (subst; auto). }
  assert (E : exact_policies std_dom std_rest ex_reg [ap_all]).
  { split; [|left; intros p [<-|[]] [C|[C|C]]; discriminate]. intros p [<-|[]]. apply policy_wf_regular; [|exact pok_abc].
    intros r [<-|[]]. apply rl_regular; [exact pok_ev|exact pok_abc]. }
  rewrite <- ex_contains; [vm_compute; discriminate|].
  exact (ex_layer_wf LIstio _ [ap_all] HC E).
Qed.

(** Configurations.  A K8s/Calico and an Istio layer. *)
Definition ex_layers : @layers conns := [(LK8sCalico, ex_pols); (LIstio, ex_istio)].
Example ex_C26 : layers_exact std_dom std_rest ex_reg ex_layers /\
  let x := all_allowed (config_conns ex_ops ex_peers ex_layers only_all_allowed) in
  contains (val_ops std_dom) (ex_conn (idx pc) (idx pa) 17 53) x = true /\
  contains (val_ops std_dom) (ex_conn (idx pc) (idx pa) 6 80) x = false /\
  contains (val_ops std_dom) (ex_conn (idx pa) (idx pc) 6 80) x = true.
Proof.
  split; [|repeat split; vm_compute; reflexivity].
  intros n pols [H|[H|[]]]; injection H as <- <-; [exact ex_pols_exact|exact ex_istio_exact].
Qed.
(** Finding F26: with a host endpoint and no K8s/Calico policy, the filter for explicitly allowed connections loses every
    allowed connection: replace(.., calc_all_allowed=False) is undone by __post_init__. *)
Theorem C26_explicitly_allowed_with_host_endpoints_refuted :
  let ls := [(LIstio, ex_istio)] in
  exists pt, ex_space pt /\
    contains (val_ops std_dom) pt (all_allowed (config_conns ex_ops ex_peers ls only_all_allowed)) = true /\
    contains (val_ops std_dom) pt (allowed (layer_conns ex_ops LIstio ex_peers ex_istio only_allowed)) = true /\
    hbool (allowed (config_conns ex_ops ex_peers ls only_allowed)) = false /\
    hbool (all_allowed (config_conns ex_ops ex_peers ls only_allowed)) = false /\
    (* without the host endpoint it is reported *)
    contains (val_ops std_dom) pt (allowed (config_conns ex_ops [pa; pb; pc; dns] ls only_allowed)) = true.
Proof.
  cbv zeta. exists (ex_conn (idx pc) (idx pa) 6 80). split; [space_tac|]. repeat split; vm_compute; reflexivity.
Qed.
Example ex_C28 : ex_regular (c_rect ex_ops None None None) /\
  let x := filter_by_peer_types ex_ops ex_peers (c_rect ex_ops None None None) in
  contains (val_ops std_dom) (ex_conn 0 5 6 80) x = false /\ contains (val_ops std_dom) (ex_conn 0 (idx dns) 6 80) x = false /\
  contains (val_ops std_dom) (ex_conn (idx dns) (idx pa) 6 80) x = false /\ contains (val_ops std_dom) (ex_conn (idx pa) (idx dns) 6 80) x = true /\
  contains (val_ops std_dom) (ex_conn 0 (idx pa) 6 80) x = true.
Proof.
  split; [|repeat split; vm_compute; reflexivity]. split; [apply (l_rect_ok _ _ _ _ _ _ _ _ _ ex_laws); exact I|left; vm_compute; reflexivity].
Qed.
(** The container: K8s (order 1000), Calico without order, with order 10, a duplicate and a policy of unknown kind. *)
Definition ex_added : list policy :=
  [ex_k8s; Policy "late" "ns" TCalicoGlobal true false [] [] [] None Allow; ex_calico2; ex_k8s;
   Policy "u" "ns" TUnknown true false [] [] [] None Allow; ap_allow; Policy "gw" "ns" TGateway false false [] [] [] None Allow].
Example ex_C22_C27 : let c := add_all pcont_init ex_added in
  map p_name (layer_list c LK8sCalico) = ["c2"; "k"; "late"] /\ List.length (policies c) = 5 /\
  map p_name (layer_list c LIstio) = ["allow"] /\ append_policy c ex_k8s = None /\
  lget (lays (add_all pcont_init [ap_allow])) LK8sCalico = None /\ lget (lays (add_all (@pcont_init conns) [])) LK8sCalico = Some [].
Proof. repeat split; vm_compute; reflexivity. Qed.

Print Assumptions C20_first_match.
Print Assumptions C20_emptiness_with_pass_refuted.
Print Assumptions C21_union_of_rules.
Print Assumptions C22_sorted_by_order.
Print Assumptions C22_layer_holds_its_policies.
Print Assumptions C22_deny_before_allow.
Print Assumptions C22_deny_before_allow_any_order_refuted.
Print Assumptions C23_first_decisive_policy_wins.
Print Assumptions C24_k8s_calico_layer.
Print Assumptions C25_istio_tcp.
Print Assumptions C25_istio_tcp_to_address.
Print Assumptions C25_non_tcp_unrestricted.
Print Assumptions C25_late_deny_refuted.
Print Assumptions C25_dns_refuted.
Print Assumptions C26_all_allowed_is_the_intersection.
Print Assumptions C26_explicit_denied_captured.
Print Assumptions C26_denied_with_host_endpoints.
Print Assumptions C26_explicitly_allowed_with_host_endpoints_refuted.
Print Assumptions C27_invariants.
Print Assumptions C27_append.
Print Assumptions C28_impossible_connections_removed.
