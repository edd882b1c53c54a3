(** * C29-C34: the answers of the queries.

    The theorems are about the model of QueryModel.v run on the modelled ConnectivityProperties objects over the domain
    the code uses while a query runs ([query_dom], NetworkConfigQuery.py:74-97): the IP addresses and the peers [vis] of
    the query's configurations, out of the registered peers [reg].  The meaning of the sets of allowed connections of a
    configuration is the subject of C20-C26. *)
From Coq Require Import ZArith List Bool Arith Lia String.
From Verif Require Import IntervalModel IntervalFacts HyperModel HyperFacts HyperTop HyperInst PropHyperCube ConnModel
                          PortProtoModel PeerModel PeerFacts PeerSetFacts PolicyModel PolicyLaws PolicyFacts LayerFacts
                          OrderFacts ConnAlg StdDims PropLayers QueryModel QueryFacts QueryAlg QuerySpecs SemDiff QueryOne.
Import ListNotations.
Local Open Scope string_scope.
Local Open Scope nat_scope.
Local Open Scope list_scope.

Notation config := (@config (hc val)).
Notation answer := (@answer (hc val)).

Section Queries.
Context (reg vis : list peer) (R : reg_ok reg) (HV : container reg vis) (NE : vis <> [])
        (rid : rule -> rule -> bool) (h6 : policy -> bool) (pod_name : peer -> string).
Let dom := query_dom reg vis.
Let QK := query_alg reg vis R HV NE.
Let A := cube_ops dom std_all reg.
Let Q := cube_qops dom std_all reg.
Let L := q_claws dom std_rest reg vis _ _ QK.
Let QL := q_qlaws dom std_rest reg vis _ _ QK.
Let NB : forall p, In p vis -> is_block p = false := fun p H => proj2 (HV p H).
Local Notation space := (a_space dom).
Local Notation from := (a_src reg).
Local Notation to := (a_dst reg).

(** ** Vocabulary of the statements *)
(** The configurations the theorems are about: peers of the query, policies read in some order, rules and selections
    that are well formed, and layers that are evaluated exactly (see C20-C24). *)
Definition policy_good (ps : peerset) (p : policy) : Prop :=
  policy_wf dom std_rest vis p /\ confined dom reg ps p /\
  forall r, In r (p_ingress p ++ p_egress p) -> cls_of (r_props r) = Conn.
Definition good (g : config) : Prop :=
  container vis (g_peers g) /\ loaded g /\ (forall p, In p (policy_list g) -> policy_good (g_peers g) p) /\
  forall n pols, In (n, pols) (lays (g_pols g)) -> exact_policies dom std_rest vis pols.
(** Configurations without Pass rules; the clones made by queries are of this kind too. *)
Definition plain (g : config) : Prop :=
  container vis (g_peers g) /\ loaded g /\ forall p, In p (policy_list g) -> policy_good (g_peers g) p /\ without_pass p.

(** The connection is allowed by the configuration, or by one of its layers. *)
Definition connects (on : option lname) (g : config) (pt : conn) : Prop :=
  pt @ all_allowed (match on with
                    | None => config_conns A (g_peers g) (lays (g_pols g)) only_all_allowed
                    | Some n => config_layer_conns A (g_peers g) (lays (g_pols g)) n only_all_allowed
                    end).
(** The connection is allowed because policies say so. *)
Definition captures (g : config) (pt : conn) : Prop :=
  pt @ allowed (config_conns A (g_peers g) (lays (g_pols g)) only_allowed).
(** IPv6 addresses are left out of the comparison. *)
Definition ignores6 (flag : bool) (g1 g2 : config) : Prop :=
  flag = true /\ (forall p, In p (policy_list g1) -> h6 p = false) /\ (forall p, In p (policy_list g2) -> h6 p = false).
(** The connections a query looks at: no DNS entry as source, not both ends outside of the cluster. *)
Definition looks_at (flag : bool) (g1 g2 : config) (pt : conn) : Prop :=
  ~ named_dns (from pt) /\ ~ (is_addr (from pt) /\ (is_addr (to pt) \/ named_dns (to pt))) /\
  (ignores6 flag g1 g2 -> ~ v6 (from pt) /\ ~ v6 (to pt)).
(** Nothing wrong with an empty set of allowed connections: some connection is allowed, or there is a single layer. *)
Definition single_layer (g : config) : Prop :=
  exists n pols, lays (g_pols g) = [(n, pols)] /\ (~ has_hep (g_peers g) \/ n = LK8sCalico).
Definition answerable (on : option lname) (g : config) : Prop :=
  match on with
  | None => (exists pt, space pt /\ connects None g pt) \/ single_layer g
  | Some _ => exists x, member (g_peers g) x /\ ~ named_dns x
  end.
Definition answerable_captured (g : config) : Prop :=
  ~ has_hep (g_peers g) /\ ((exists pt, space pt /\ captures g pt) \/ single_layer g).
(** Policy containers that compare equal were filled in the same order. *)
Definition same_policies (g1 g2 : config) : Prop := pdict_eqb A rid (policies (g_pols g1)) (policies (g_pols g2)) = true.
Definition in_same_order (g1 g2 : config) : Prop :=
  same_policies g1 g2 -> map fst (policies (g_pols g1)) = map fst (policies (g_pols g2)).
Definition same_peers (g1 g2 : config) : Prop := (forall x, member (g_peers g1) x <-> member (g_peers g2) x) /\
  forall s, In s (g_services g1) <-> In s (g_services g2).

(** ** Bridges *)
Local Notation cfg_ok := (cfg_ok A (q_src reg) (q_dst reg) (q_space dom) a_mem (q_ok dom std_rest) (a_safe std_rest) vis).
Lemma exact_cfg : forall g, container vis (g_peers g) -> inv (g_pols g) -> (forall p, In p (policy_list g) -> policy_good (g_peers g) p) ->
  (forall n pols, In (n, pols) (lays (g_pols g)) -> exact_policies dom std_rest vis pols) -> cfg_ok g.
Proof.
  intros g HC I P E. split; [exact HC|].
  assert (PL : forall n pols p, In (n, pols) (lays (g_pols g)) -> In p pols -> policy_good (g_peers g) p).
  { intros n pols p Hn Hp. apply P. apply (layer_policy g n pols p I Hn Hp). }
  split.
  - intros n pols Hn. destruct (exact_layer_ok dom std_rest reg vis _ _ (qa_alg _ _ _ _ _ _ QK) n pols (E n pols Hn)) as [O1 O2].
    assert (X : forall ing, layer_ok A (a_ok dom std_rest) (a_safe std_rest) vis n ing pols -> layer_ok A (q_ok dom std_rest) (a_safe std_rest) vis n ing pols).
    { intros ing [H1 H2]. split; [|exact H2]. intros p Hp. destruct (H1 p Hp) as [(K1 & K2 & K3) K4]. split; [|exact K4].
      destruct (PL n pols p Hn Hp) as (_ & _ & CC).
      split; [|split; [|exact K3]]; intros r Hr; (split; [auto|apply CC; apply in_or_app; auto]). }
    split; apply X; assumption.
  - intros n pols Hn p ing pt a Hp Sp D. destruct (PL n pols p Hn Hp) as (_ & CF & _).
    apply decides_bridge in D as [D1 D2]. pose proof (opinion_selects dom reg (g_peers g) p ing pt a CF Sp D1 D2) as S.
    split; [apply captured_bridge; exact S|]. apply CF. apply S.
Qed.
Lemma loaded_inv : forall g : config, loaded g -> inv (g_pols g).
Proof. intros g H. rewrite H. apply inv_add_all. apply inv_init. Qed.
Lemma good_cfg : forall g, good g -> cfg_ok g.
Proof. intros g (H1 & H2 & H3 & H4). apply exact_cfg; auto. apply loaded_inv; auto. Qed.
Lemma plain_good : forall g, plain g -> good g.
Proof.
  intros g (H1 & H2 & H3). split; [auto|]. split; [auto|]. split; [intros p Hp; apply H3; auto|].
  intros n pols Hn. assert (X : forall p, In p pols -> In p (policy_list g)) by (intros p Hp; apply (layer_policy g n pols p (loaded_inv g H2) Hn Hp)).
  split; [intros p Hp; apply (H3 p); auto|]. left. intros p Hp. apply (H3 p); auto.
Qed.
(** The policies of a clone are policies the clone was given. *)
Lemma clone_list : forall (g : config) (l : list policy) p, In p (policy_list (with_policies g l)) -> In p l.
Proof.
  intros g l p H. unfold policy_list, with_policies in H. cbn [g_pols] in H.
  assert (X : forall (l : list policy) (c : @pcont conns), In p (map snd (policies (add_all c l))) -> In p (map snd (policies c)) \/ In p l).
  { clear. induction l as [|q l IH]; intros c H; [left; exact H|]. cbn [add_all fold_left] in H. change (fold_left _ l ?c) with (add_all c l) in H.
    destruct (append_policy c q) as [c'|] eqn:E.
    - apply IH in H as [H|H]; [|right; right; exact H]. unfold append_policy in E. destruct (ptype_eqb _ _); [discriminate|].
      destruct (existsb _ _); [discriminate|].
      assert (Ep : policies c' = policies c ++ [((full_name q, p_kind q), q)]).
      { destruct (layers_add _ _ _); [|discriminate]. injection E as <-. reflexivity. }
      rewrite Ep, map_app in H. apply in_app_or in H as [H|[<-|[]]]; [left; exact H|right; left; reflexivity].
    - apply IH in H as [H|H]; [left; exact H|right; right; exact H]. }
  apply X in H as [[]|H]. exact H.
Qed.
Lemma plain_clone : forall (g : config) l, plain g -> (forall p, In p l -> policy_good (g_peers g) p /\ without_pass p) -> plain (with_policies g l).
Proof.
  intros g l (H1 & H2 & H3) H. split; [exact H1|]. split; [apply loaded_any|]. intros p Hp. apply clone_list in Hp. apply H. exact Hp.
Qed.
Lemma ignores_excl : forall flag g1 g2, excl h6 flag g1 g2 = true <-> ignores6 flag g1 g2.
Proof.
  intros flag g1 g2. unfold excl, excludes6, ignores6. rewrite !andb_true_iff, !forallb_forall.
  assert (X : forall l : list policy, (forall x, In x l -> negb (h6 x) = true) <-> (forall x, In x l -> h6 x = false)).
  { intros l. split; intros H x Hx; specialize (H x Hx); destruct (h6 x); auto; discriminate. }
  rewrite !X. tauto.
Qed.
Lemma looks_rel : forall flag g1 g2 pt, relevant (excl h6 flag g1 g2) (from pt) (to pt) <-> looks_at flag g1 g2 pt.
Proof.
  intros flag g1 g2 pt. unfold relevant, possible, looks_at. rewrite ignores_excl. tauto.
Qed.
Lemma answer_ok : forall on g, answerable on g -> ok_on A (q_space dom) a_mem on g.
Proof. intros [n|] g H; exact H. Qed.
Lemma order_ok : forall g1 g2, good g1 -> good g2 -> in_same_order g1 g2 ->
  pdict_eqb A rid (policies (g_pols g1)) (policies (g_pols g2)) = true -> same_order g1 g2.
Proof. intros g1 g2 (_ & L1 & _) (_ & L2 & _) O H. split; [auto|]. split; [auto|]. apply O. exact H. Qed.
Lemma connects_on : forall on g pt, good g -> answerable on g -> space pt ->
  (connects on g pt <-> allows_on A (q_src reg) (q_dst reg) a_tcp a_mem on g pt).
Proof.
  intros on g pt G S Sp.
  destruct (on_usable A Q (q_src reg) (q_dst reg) a_tcp (q_space dom) a_mem (q_ok dom std_rest) (a_safe std_rest) vis (q_put) L QL on g (good_cfg g G) (answer_ok on g S)) as [_ M].
  rewrite <- (M pt Sp). destruct on; reflexivity.
Qed.
Local Notation spec f := (f A Q (q_src reg) (q_dst reg) a_tcp (q_space dom) a_mem (q_ok dom std_rest) (a_safe std_rest) vis q_put L QL NB).

(** ** C29: equivalence *)
Context (RS : forall r s, rid r s = true -> r = s).
(** Configurations with different peers or services are not compared.  Otherwise a positive answer means that both
    configurations (both layers) allow the same connections, a negative answer comes with the exact differences, and if
    IPv6 is left out the answer is positive whenever there is no difference. *)
Theorem C29_equivalence : forall flag g1 g2 on, good g1 -> good g2 -> answerable on g1 -> answerable on g2 -> in_same_order g1 g2 ->
  let a := equivalence A Q h6 rid flag g1 g2 on in
  let agree := forall pt, space pt -> looks_at flag g1 g2 pt -> (connects on g1 pt <-> connects on g2 pt) in
  (~ same_peers g1 g2 -> a_bool a = false /\ a_num a = 1%Z /\ a_skip a = true) /\
  (same_peers g1 g2 ->
     a_skip a = false /\ a_num a = (if a_bool a then 0 else 1)%Z /\
     (a_bool a = true -> agree /\ a_expl a = []) /\
     (ignores6 flag g1 g2 -> agree -> a_bool a = true) /\
     (a_bool a = false -> exists d1 d2, a_expl a = [d1; d2] /\ forall pt, space pt ->
        (pt @ d1 <-> looks_at flag g1 g2 pt /\ connects on g1 pt /\ ~ connects on g2 pt) /\
        (pt @ d2 <-> looks_at flag g1 g2 pt /\ connects on g2 pt /\ ~ connects on g1 pt))).
Proof using R HV NE RS.
  intros flag g1 g2 on G1 G2 S1 S2 O a agree.
  destruct (spec equivalence_spec rid RS h6 flag g1 g2 on (good_cfg _ G1) (good_cfg _ G2) (answer_ok _ _ S1) (answer_ok _ _ S2) (order_ok _ _ G1 G2 O)) as [H1 H2].
  fold a in H1, H2. clearbody a.
  assert (AG : agree <-> forall pt, space pt -> relevant (excl h6 flag g1 g2) (from pt) (to pt) ->
                 (allows_on A (q_src reg) (q_dst reg) a_tcp a_mem on g1 pt <-> allows_on A (q_src reg) (q_dst reg) a_tcp a_mem on g2 pt)).
  { unfold agree. split; intros H pt Sp Rl; specialize (H pt Sp); rewrite looks_rel in *; rewrite <- !connects_on in *; auto. }
  split.
  - intros X. rewrite (H1 X). auto.
  - intros X. destruct (H2 X) as (K1 & K2 & K3 & K4 & K5). clear H1 H2. split; [auto|]. split; [rewrite K2; destruct (a_bool a); reflexivity|].
    split; [rewrite AG; exact K3|]. split; [rewrite AG, <- ignores_excl; exact K4|].
    intros E. destruct (K5 E) as (d1 & d2 & E1 & _ & _ & M). exists d1, d2. split; [exact E1|]. intros pt Sp.
    rewrite <- looks_rel, !connects_on by auto. apply M. exact Sp.
Qed.

(** ** C30: containment *)
(** [all_contained]: the peers of the first configuration are peers of the second and its connections are allowed there. *)
Definition all_contained (flag : bool) (g1 g2 : config) : Prop :=
  (forall x, member (g_peers g1) x -> member (g_peers g2) x) /\
  forall pt, space pt -> looks_at flag g1 g2 pt -> connects None g1 pt -> connects None g2 pt.
Definition not_contained (flag : bool) (g1 g2 : config) (l : list conns) : Prop :=
  exists d, l = [d] /\ forall pt, space pt -> (pt @ d <-> looks_at flag g1 g2 pt /\ connects None g1 pt /\ ~ connects None g2 pt).
Theorem C30_containment : forall flag cmd g1 g2, good g1 -> good g2 -> answerable None g1 -> answerable None g2 ->
  let a := containment A Q h6 flag cmd false g1 g2 in
  (a_bool a = true <-> all_contained flag g1 g2) /\ a_skip a = false /\
  a_num a = (if Bool.eqb cmd (a_bool a) then 0 else 1)%Z /\
  (a_bool a = true -> a_expl a = []) /\
  (a_bool a = false -> (forall x, member (g_peers g1) x -> member (g_peers g2) x) -> not_contained flag g1 g2 (a_expl a)).
Proof using R HV NE.
  intros flag cmd g1 g2 G1 G2 S1 S2 a.
  destruct (spec containment_spec h6 flag cmd false g1 g2 (good_cfg _ G1) (good_cfg _ G2) (answer_ok _ _ S1) (answer_ok _ _ S2)) as (B & N & Sk & E & D).
  fold a in B, N, Sk, E, D. clearbody a. split; [|split; [exact Sk|split; [rewrite N; destruct cmd, (a_bool a); reflexivity|split; [exact E|]]]].
  - rewrite B. unfold contained, all_contained. apply and_iff_compat_l. split; intros H pt Sp; specialize (H pt Sp); rewrite looks_rel in *; exact H.
  - intros X Y. destruct (D X Y) as (d & E1 & _ & M). exists d. split; [exact E1|]. intros pt Sp. rewrite <- looks_rel. apply M. exact Sp.
Qed.

(** Both directions; in scheme mode the number tells which of the two hold, unless the policies are the same. *)
Theorem C30_two_way : forall flag cmd g1 g2, good g1 -> good g2 -> answerable None g1 -> answerable None g2 -> in_same_order g1 g2 ->
  let a := two_way A Q h6 rid flag cmd g1 g2 in
  let c12 := all_contained flag g1 g2 in let c21 := all_contained flag g2 g1 in
  (a_bool a = true <-> c12 /\ c21) /\ a_skip a = false /\
  (cmd = true -> a_num a = (if a_bool a then 0 else 1)%Z) /\
  (cmd = false -> ~ (same_peers g1 g2 /\ same_policies g1 g2) ->
     (c12 -> c21 -> a_num a = 3%Z) /\ (c12 -> ~ c21 -> a_num a = 2%Z) /\ (~ c12 -> c21 -> a_num a = 1%Z) /\ (~ c12 -> ~ c21 -> a_num a = 0%Z)).
Proof using R HV NE RS.
  intros flag cmd g1 g2 G1 G2 S1 S2 O a c12 c21.
  destruct (spec two_way_spec rid RS h6 flag cmd g1 g2 (good_cfg _ G1) (good_cfg _ G2) (answer_ok _ _ S1) (answer_ok _ _ S2) (order_ok _ _ G1 G2 O)) as (B & Sk & N1 & N2).
  fold a in B, Sk, N1, N2. clearbody a.
  assert (E12 : contained (q_src reg) (q_dst reg) (q_space dom) (excl h6 flag g1 g2) g1 g2 (allows A a_mem g1) (allows A a_mem g2) <-> c12).
  { unfold contained, c12, all_contained. apply and_iff_compat_l. split; intros H pt Sp; specialize (H pt Sp); rewrite looks_rel in *; exact H. }
  assert (E21 : contained (q_src reg) (q_dst reg) (q_space dom) (excl h6 flag g1 g2) g2 g1 (allows A a_mem g2) (allows A a_mem g1) <-> c21).
  { assert (X : excl h6 flag g1 g2 = excl h6 flag g2 g1) by (unfold excl; apply andb_comm). rewrite X.
    unfold contained, c21, all_contained. apply and_iff_compat_l. split; intros H pt Sp; specialize (H pt Sp); rewrite looks_rel in *; exact H. }
  rewrite E12, E21 in B. rewrite E12, E21 in N2. clearbody c12 c21. split; [exact B|]. split; [exact Sk|].
  split; [intros X; rewrite (N1 X); destruct (a_bool a); reflexivity|].
  intros X Y. apply N2; [exact X|]. intros Z. apply Y. unfold identical in Z. destruct (comparable g1 g2) eqn:CP; cbn [negb] in Z; [|discriminate].
  split; [apply (comparable_spec vis g1 g2 (proj1 G1) (proj1 G2)); exact CP|]. unfold same_policies. cbn [andb] in Z.
  destruct (pdict_eqb _ _ _ _); [reflexivity|discriminate].
Qed.

(** ** C31: interference, permission and prohibition *)
Lemma captured_ok : forall g, answerable_captured g -> settled_explicit A (q_space dom) a_mem g.
Proof using. intros g H. exact H. Qed.
(** The first configuration extends what policies of the second allow. *)
Theorem C31_interferes : forall flag cmd g1 g2, good g1 -> good g2 -> answerable_captured g1 -> answerable_captured g2 ->
  let a := interferes A Q h6 rid flag cmd g1 g2 in
  (~ same_peers g1 g2 -> a_bool a = false /\ a_num a = (if cmd then 1 else 0)%Z /\ a_skip a = true) /\
  (same_peers g1 g2 ->
     (a_bool a = true <-> exists pt, space pt /\ looks_at flag g1 g2 pt /\ captures g1 pt /\ ~ captures g2 pt) /\
     a_num a = (if Bool.eqb cmd (a_bool a) then 0 else 1)%Z /\ a_skip a = false /\
     (a_bool a = true -> exists d, a_expl a = [d] /\ forall pt, space pt -> (pt @ d <-> looks_at flag g1 g2 pt /\ captures g1 pt /\ ~ captures g2 pt)) /\
     (a_bool a = false -> a_expl a = [])).
Proof using R HV NE.
  intros flag cmd g1 g2 G1 G2 S1 S2 a.
  destruct (spec interferes_spec rid h6 flag cmd g1 g2 (good_cfg _ G1) (good_cfg _ G2) (captured_ok _ S1) (captured_ok _ S2)) as [H1 H2].
  fold a in H1, H2. clearbody a. split; [intros X; rewrite (H1 X); destruct cmd; auto|]. intros X. destruct (H2 X) as (B & N & Sk & D & E). clear H1 H2.
  split; [|split; [rewrite N; destruct cmd, (a_bool a); reflexivity|split; [exact Sk|split; [|exact E]]]].
  - rewrite B. split; intros (pt & Sp & Rl & H); exists pt; (split; [exact Sp|]); (split; [apply looks_rel; exact Rl|exact H]).
  - intros Y. destruct (D Y) as (d & E1 & _ & M). exists d. split; [exact E1|]. intros pt Sp. rewrite <- looks_rel. apply M. exact Sp.
Qed.
(** Some connection that policies of the first configuration allow is allowed by the second. *)
Theorem C31_intersects : forall flag g1 g2, good g1 -> good g2 -> answerable_captured g1 -> answerable None g2 ->
  let a := intersects A Q h6 rid flag g1 g2 in
  (~ same_peers g1 g2 -> a_bool a = false /\ a_num a = 0%Z /\ a_skip a = true) /\
  (same_peers g1 g2 ->
     (a_bool a = true <-> exists pt, space pt /\ looks_at flag g1 g2 pt /\ captures g1 pt /\ connects None g2 pt) /\
     a_num a = (if a_bool a then 0 else 1)%Z /\ a_skip a = false /\
     (a_bool a = true -> exists d, a_expl a = [d] /\ forall pt, space pt -> (pt @ d <-> looks_at flag g1 g2 pt /\ captures g1 pt /\ connects None g2 pt)) /\
     (a_bool a = false -> a_expl a = [])).
Proof using R HV NE.
  intros flag g1 g2 G1 G2 S1 S2 a.
  destruct (spec intersects_spec rid h6 flag g1 g2 (good_cfg _ G1) (good_cfg _ G2) (captured_ok _ S1) (answer_ok _ _ S2)) as [H1 H2].
  fold a in H1, H2. clearbody a. split; [intros X; rewrite (H1 X); auto|]. intros X. destruct (H2 X) as (B & N & Sk & D & E). clear H1 H2.
  split; [|split; [rewrite N; destruct (a_bool a); reflexivity|split; [exact Sk|split; [|exact E]]]].
  - rewrite B. split; intros (pt & Sp & Rl & H); exists pt; (split; [exact Sp|]); (split; [apply looks_rel; exact Rl|exact H]).
  - intros Y. destruct (D Y) as (d & E1 & _ & M). exists d. split; [exact E1|]. intros pt Sp. rewrite <- looks_rel. apply M. exact Sp.
Qed.
(** The policies of a clone without the gateway layers. *)
Definition is_gateway (p : policy) : Prop := p_kind p = TIngress \/ p_kind p = TGatewayPolicy.
Lemma gateway_class : forall p : policy, is_gateway_policy p = true <-> is_gateway p.
Proof using. clear h6. intros p. unfold is_gateway_policy, is_gateway. destruct (p_kind p); cbn; intuition discriminate. Qed.
Lemma without_gateways_same : forall g : config, g_peers (without_gateways g) = g_peers g /\ g_services (without_gateways g) = g_services g.
Proof using. intros g. unfold without_gateways. destruct (_ || _); auto. Qed.
(** Cloning a configuration with some of its policies keeps exactly those, in their order. *)
Theorem clones_lose_nothing : forall (g : config) f, loaded g ->
  policy_list (with_policies g (filter f (policy_list g))) = filter f (policy_list g).
Proof using. intros g f H. apply filtered_list. apply loaded_inv. exact H. Qed.
Lemma no_layer : forall (g : config) n, inv (g_pols g) -> nonempty_layer g n = false -> forall p, In p (policy_list g) -> of_layer n p = false.
Proof using.
  clear h6. intros g n I H p Hp. destruct (of_layer n p) eqn:E; [|reflexivity]. exfalso.
  assert (X : In p (layer_list (g_pols g) n)).
  { apply (Permutation.Permutation_in p (Permutation.Permutation_sym (inv_lists _ I n))). apply filter_In. split; [exact Hp|exact E]. }
  unfold nonempty_layer in H. unfold layer_list in X. destruct (lget (lays (g_pols g)) n) as [[|q l]|]; try discriminate; exact X.
Qed.
Theorem without_gateways_list : forall g : config, loaded g ->
  policy_list (without_gateways g) = filter (fun p => negb (is_gateway_policy p)) (policy_list g).
Proof using.
  intros g H. pose proof (loaded_inv g H) as I. unfold without_gateways. destruct (_ || _) eqn:E; [apply filtered_list; exact I|].
  apply orb_false_iff in E as [E1 E2].
  assert (X : forall p, In p (policy_list g) -> negb (is_gateway_policy p) = true).
  { intros p Hp. pose proof (no_layer g _ I E1 p Hp) as F1. pose proof (no_layer g _ I E2 p Hp) as F2. revert F1 F2.
    unfold of_layer, is_gateway_policy. destruct (p_kind p); cbn; auto. }
  clear - X. induction (policy_list g) as [|p l IH]; [reflexivity|]. cbn [filter]. rewrite (X p (or_introl eq_refl)). f_equal. apply IH. intros q Hq. apply X. right. exact Hq.
Qed.
Lemma plain_without_gateways : forall g, plain g -> plain (without_gateways g).
Proof using.
  intros g P. unfold without_gateways. destruct (_ || _); [|exact P]. apply plain_clone; [exact P|]. intros p Hp. apply filter_In in Hp as [Hp _]. apply P. exact Hp.
Qed.
(** What is asked about: the first configuration has a policy that is not a gateway policy. *)
Definition has_plain_layer (g : config) : Prop := policy_list g <> [] /\ exists n pols, In (n, pols) (lays (g_pols g)) /\ n <> LK8sGateway /\ n <> LIstioGateway.
Lemma plain_layer_bool : forall g : config, has_plain_layer g -> only_gateway_layers (lays (g_pols g)) = false.
Proof using.
  clear h6. intros g (_ & n & pols & H & N1 & N2). destruct (only_gateway_layers _) eqn:E; [|reflexivity]. exfalso. unfold only_gateway_layers in E.
  destruct (lays (g_pols g)) as [|l ls]; [destruct H|]. rewrite forallb_forall in E. apply E in H. cbn [fst] in H. destruct n; cbn in H; try discriminate; auto.
Qed.
(** Everything that policies of the first configuration allow is allowed by the second. *)
Theorem C31_permits : forall flag cmd g1 g2, let g := without_gateways g1 in
  good g -> good g2 -> answerable_captured g -> answerable None g2 -> has_plain_layer g1 -> same_peers g1 g2 ->
  let a := permits A Q h6 rid flag cmd g1 g2 in
  (a_bool a = true <-> forall pt, space pt -> looks_at flag g g2 pt -> captures g pt -> connects None g2 pt) /\
  a_num a = (if a_bool a then 0 else 1)%Z /\ a_skip a = false /\
  (a_bool a = false -> exists d, a_expl a = [d] /\ forall pt, space pt -> (pt @ d <-> looks_at flag g g2 pt /\ captures g pt /\ ~ connects None g2 pt)).
Proof using R HV NE.
  intros flag cmd g1 g2 g G1 G2 S1 S2 HP SP a.
  destruct (spec permits_spec rid h6 flag cmd g1 g2 (good_cfg _ G1) (good_cfg _ G2) (captured_ok _ S1) (answer_ok _ _ S2) (proj1 HP) (plain_layer_bool g1 HP) SP) as (B & N & Sk & D).
  fold a in B, N, Sk, D. fold g in B, D. clearbody a. split; [|split; [rewrite N; destruct (a_bool a); reflexivity|split; [exact Sk|]]].
  - rewrite B. split; intros H pt Sp; specialize (H pt Sp); rewrite looks_rel in *; exact H.
  - intros Y. destruct (D Y) as (d & E1 & _ & M). exists d. split; [exact E1|]. intros pt Sp. rewrite <- looks_rel. apply M. exact Sp.
Qed.
(** Nothing that policies of the first configuration allow is allowed by the second.  The boolean answer tells the
    contrary: it is that of the intersection query. *)
Theorem C31_forbids : forall flag g1 g2, let g := without_gateways g1 in
  good g -> good g2 -> answerable_captured g -> answerable None g2 -> has_plain_layer g1 -> same_peers g1 g2 ->
  let a := forbids A Q h6 rid flag g1 g2 in
  (a_num a = 0%Z <-> forall pt, space pt -> looks_at flag g g2 pt -> captures g pt -> ~ connects None g2 pt) /\
  a_num a = (if a_bool a then 1 else 0)%Z /\ a_skip a = false /\
  (a_bool a = true -> exists d, a_expl a = [d] /\ forall pt, space pt -> (pt @ d <-> looks_at flag g g2 pt /\ captures g pt /\ connects None g2 pt)).
Proof using R HV NE.
  intros flag g1 g2 g G1 G2 S1 S2 HP SP a.
  destruct (spec forbids_spec rid h6 flag g1 g2 (good_cfg _ G1) (good_cfg _ G2) (captured_ok _ S1) (answer_ok _ _ S2) (proj1 HP) (plain_layer_bool g1 HP) SP) as (B & N & Sk & D).
  fold a in B, N, Sk, D. fold g in B, D. clearbody a.
  assert (N' : a_num a = (if a_bool a then 1 else 0)%Z) by (rewrite N; destruct (a_bool a); reflexivity).
  split; [|split; [exact N'|split; [exact Sk|]]].
  - assert (X : a_num a = 0%Z <-> a_bool a = false) by (rewrite N'; destruct (a_bool a); split; congruence).
    rewrite X, B. split; intros H pt Sp; specialize (H pt Sp); rewrite looks_rel in *; exact H.
  - intros Y. destruct (D Y) as (d & E1 & _ & M). exists d. split; [exact E1|]. intros pt Sp. rewrite <- looks_rel. apply M. exact Sp.
Qed.

(** ** C32: semantic difference *)
Definition holds (o : option conns) (pt : conn) : Prop := match o with Some x => pt @ x | None => False end.
Definition lost_set (flag : bool) (g1 g2 : config) (k : category) : option conns := fst (sem_diff A Q h6 flag g1 g2 k).
Definition gained_set (flag : bool) (g1 g2 : config) (k : category) : option conns := snd (sem_diff A Q h6 flag g1 g2 k).
Lemma good_pods : forall g, good g -> pols_ok vis g /\ selects_pods g /\ inv (g_pols g).
Proof using.
  clear h6. intros g (H1 & H2 & H3 & _). split; [|split; [|apply loaded_inv; exact H2]].
  - intros p Hp. apply (H3 p Hp).
  - intros p x Hp Hx. destruct (H3 p Hp) as (_ & (_ & _ & S) & _). apply S in Hx. destruct x; cbn in *; tauto.
Qed.
Local Notation lost_as := (lost_in A (q_src reg) (q_dst reg) a_mem).
Local Notation gained_as := (gained_in A (q_src reg) (q_dst reg) a_mem).
Lemma diff_sets : forall flag g1 g2 k, good g1 -> good g2 -> answerable None g1 -> answerable None g2 ->
  (forall pt, space pt -> (holds (lost_set flag g1 g2 k) pt <-> looks_at flag g1 g2 pt /\ lost_as g1 g2 k pt) /\
                          (holds (gained_set flag g1 g2 k) pt <-> looks_at flag g1 g2 pt /\ gained_as g1 g2 k pt)) /\
  (reported A (lost_set flag g1 g2 k) = true <-> exists pt, space pt /\ holds (lost_set flag g1 g2 k) pt) /\
  (reported A (gained_set flag g1 g2 k) = true <-> exists pt, space pt /\ holds (gained_set flag g1 g2 k) pt).
Proof using R HV NE.
  intros flag g1 g2 k G1 G2 S1 S2. destruct (good_pods g1 G1) as (P1 & _). destruct (good_pods g2 G2) as (P2 & _).
  destruct (spec sem_diff_spec h6 flag g1 g2 k (good_cfg _ G1) (good_cfg _ G2) (answer_ok _ _ S1) (answer_ok _ _ S2) P1 P2) as [H1 H2].
  fold (lost_set flag g1 g2 k) in H1. fold (gained_set flag g1 g2 k) in H2.
  assert (X : forall (o : option conns) (P : conn -> Prop), shows (q_space dom) a_mem (q_ok dom std_rest) P o -> (forall pt, space pt -> (holds o pt <-> P pt)) /\
                (reported A o = true <-> exists pt, space pt /\ holds o pt)).
  { intros [x|] P H; cbn [shows holds reported] in *.
    - destruct H as [Kx M]. split; [exact M|]. exact (l_bool _ _ _ _ _ _ _ _ _ L x Kx).
    - split; [intros pt _; split; [intros []|intros Y; apply (H pt Y)]|]. split; [discriminate|intros (q & _ & [])]. }
  destruct (X _ _ H1) as [E1 B1]. destruct (X _ _ H2) as [E2 B2]. split; [|split; [exact B1|exact B2]].
  intros pt Sp. rewrite (E1 pt Sp), (E2 pt Sp). change (q_src reg) with from. change (q_dst reg) with to.
  rewrite looks_rel. split; reflexivity.
Qed.
(** Every connection the query looks at is reported lost exactly if only the first configuration allows it, and gained
    exactly if only the second does, in one category each; no other connection is reported. *)
Theorem C32_exact_partition : forall flag g1 g2, good g1 -> good g2 -> answerable None g1 -> answerable None g2 -> agree_on_istio g1 g2 ->
  forall pt, space pt ->
    (looks_at flag g1 g2 pt -> from pt <> to pt ->
       ((exists k, holds (lost_set flag g1 g2 k) pt) <-> connects None g1 pt /\ ~ connects None g2 pt) /\
       ((exists k, holds (gained_set flag g1 g2 k) pt) <-> connects None g2 pt /\ ~ connects None g1 pt)) /\
    (forall k, holds (lost_set flag g1 g2 k) pt \/ holds (gained_set flag g1 g2 k) pt -> looks_at flag g1 g2 pt /\ from pt <> to pt) /\
    (forall k k', holds (lost_set flag g1 g2 k) pt -> holds (lost_set flag g1 g2 k') pt -> k = k') /\
    (forall k k', holds (gained_set flag g1 g2 k) pt -> holds (gained_set flag g1 g2 k') pt -> k = k').
Proof using R HV NE.
  intros flag g1 g2 G1 G2 S1 S2 AI pt Sp. destruct (good_pods g1 G1) as (P1 & Q1 & I1). destruct (good_pods g2 G2) as (P2 & Q2 & I2).
  assert (DL : forall k, holds (lost_set flag g1 g2 k) pt <-> looks_at flag g1 g2 pt /\ lost_as g1 g2 k pt) by (intros k; apply (diff_sets flag g1 g2 k G1 G2 S1 S2); exact Sp).
  assert (DG : forall k, holds (gained_set flag g1 g2 k) pt <-> looks_at flag g1 g2 pt /\ gained_as g1 g2 k pt) by (intros k; apply (diff_sets flag g1 g2 k G1 G2 S1 S2); exact Sp).
  split; [|split; [|split]].
  - intros LA NEQ. pose proof LA as Rl. apply looks_rel in Rl.
    pose proof (lost_exact A (q_src reg) (q_dst reg) a_tcp (q_space dom) a_mem (q_ok dom std_rest) (a_safe std_rest) vis L g1 g2 _ pt
                  (good_cfg _ G1) (good_cfg _ G2) I1 I2 Q1 Q2 AI Sp Rl NEQ) as E1.
    pose proof (gained_exact A (q_src reg) (q_dst reg) a_tcp (q_space dom) a_mem (q_ok dom std_rest) (a_safe std_rest) vis L g1 g2 _ pt
                  (good_cfg _ G1) (good_cfg _ G2) I1 I2 Q1 Q2 AI Sp Rl NEQ) as E2.
    split; [rewrite <- E1|rewrite <- E2]; split; intros [k H]; exists k; [apply DL in H|apply DL|apply DG in H|apply DG]; tauto.
  - assert (NE' : forall (P1 P2 : point -> Prop) (q : conn), (forall x, P1 x -> P2 x -> False) -> between (q_src reg) (q_dst reg) P1 P2 q -> from q <> to q).
    { intros T1 T2 q D [[X1 X2]|[X1 X2]] E; unfold q_src, q_dst in *; rewrite E in *; eauto. }
    assert (GA : forall (h1 h2 : config) x, gone h1 h2 x -> is_addr x -> False) by (intros h1 h2 [?k ?n|y] [X _] Y; cbn in *; tauto).
    assert (TA : forall (h1 h2 : config) x, touched h1 h2 x -> is_addr x -> False) by (intros h1 h2 [?k ?n|y] [[X _] _] Y; cbn in *; tauto).
    intros k [H|H].
    + apply DL in H as [LA H]. split; [exact LA|]. destruct k; cbn [lost_in] in H; try tauto.
      * apply (NE' (gone g1 g2) is_addr); [apply GA|tauto].
      * apply (NE' (gone g1 g2) (kept g1 g2)); [intros x [_ X] [_ Y]; tauto|tauto].
      * apply (NE' (touched g1 g2) is_addr); [apply TA|tauto].
    + apply DG in H as [LA H]. split; [exact LA|]. destruct k; cbn [gained_in] in H; try tauto.
      * apply (NE' (touched g1 g2) is_addr); [apply TA|tauto].
      * apply (NE' (kept g1 g2) (gone g2 g1)); [intros x [X _] [_ Y]; tauto|tauto].
      * apply (NE' (gone g2 g1) is_addr); [apply GA|tauto].
  - intros k k' H1 H2. apply DL in H1 as [_ H1]. apply DL in H2 as [_ H2]. exact (lost_once A (q_src reg) (q_dst reg) a_mem g1 g2 k k' pt H1 H2).
  - intros k k' H1 H2. apply DG in H1 as [_ H1]. apply DG in H2 as [_ H2]. exact (gained_once A (q_src reg) (q_dst reg) a_mem g1 g2 k k' pt H1 H2).
Qed.
Lemma diff_count_zero : forall flag (g1 g2 : config),
  diff_count A Q h6 flag g1 g2 = list_sum (map (fun k => (if reported A (gained_set flag g1 g2 k) then 1 else 0) + (if reported A (lost_set flag g1 g2 k) then 1 else 0)) categories).
Proof using.
  intros flag g1 g2. unfold diff_count.
  assert (X : forall l n, fold_left (fun n k => let (r, a) := sem_diff A Q h6 flag g1 g2 k in n + (if reported A a then 1 else 0) + (if reported A r then 1 else 0)) l n =
    n + list_sum (map (fun k => (if reported A (gained_set flag g1 g2 k) then 1 else 0) + (if reported A (lost_set flag g1 g2 k) then 1 else 0)) l)).
  { clear. induction l as [|k l IH]; intros n; [cbn; lia|]. cbn [fold_left map list_sum fold_right]. rewrite IH. unfold gained_set, lost_set.
    destruct (sem_diff A Q h6 flag g1 g2 k) as [r a]. cbn [fst snd]. fold (list_sum (map (fun k => (if reported A (snd (sem_diff A Q h6 flag g1 g2 k)) then 1 else 0) + (if reported A (fst (sem_diff A Q h6 flag g1 g2 k)) then 1 else 0)) l)). lia. }
  rewrite X. lia.
Qed.
Lemma list_sum_zero : forall {X} (f : X -> nat) l, list_sum (map f l) = 0 <-> forall x, In x l -> f x = 0.
Proof using.
  intros X f l. induction l as [|x l IH]; [cbn; split; [intros _ y []|auto]|]. cbn [map]. change (list_sum (f x :: map f l)) with (f x + list_sum (map f l)).
  split.
  - intros H y [<-|Hy]; [lia|]. apply IH; [lia|exact Hy].
  - intros H. rewrite (H x (or_introl eq_refl)). cbn [plus]. apply IH. intros y Hy. apply H. right. exact Hy.
Qed.
(** The answer is positive exactly if no connection between different ends is allowed by only one configuration; the
    number counts the non-empty sets. *)
Theorem C32_answer : forall flag cmd g1 g2, good g1 -> good g2 -> answerable None g1 -> answerable None g2 -> in_same_order g1 g2 ->
  agree_on_istio g1 g2 ->
  let a := semantic_diff A Q h6 rid flag cmd g1 g2 in
  (a_bool a = true <-> forall pt, space pt -> looks_at flag g1 g2 pt -> from pt <> to pt -> (connects None g1 pt <-> connects None g2 pt)) /\
  (a_bool a = true -> a_num a = 0%Z) /\
  (a_bool a = false -> a_num a = if cmd then 1%Z else Z.of_nat (List.length
     (filter (fun k => reported A (lost_set flag g1 g2 k)) categories ++ filter (fun k => reported A (gained_set flag g1 g2 k)) categories))) /\
  a_skip a = false.
Proof using R HV NE RS.
  intros flag cmd g1 g2 G1 G2 S1 S2 O AI a.
  assert (Z0 : diff_count A Q h6 flag g1 g2 = 0 <-> forall pt, space pt -> looks_at flag g1 g2 pt -> from pt <> to pt -> (connects None g1 pt <-> connects None g2 pt)).
  { rewrite diff_count_zero, list_sum_zero.
    assert (X : (forall k, In k categories -> (if reported A (gained_set flag g1 g2 k) then 1 else 0) + (if reported A (lost_set flag g1 g2 k) then 1 else 0) = 0) <->
                forall k, reported A (gained_set flag g1 g2 k) = false /\ reported A (lost_set flag g1 g2 k) = false).
    { split; intros H k; specialize (H k).
      - assert (Y : In k categories) by (destruct k; cbn; auto 10). specialize (H Y). destruct (reported A (gained_set flag g1 g2 k)), (reported A (lost_set flag g1 g2 k)); try discriminate; auto.
      - intros _. destruct H as [-> ->]. reflexivity. }
    rewrite X. clear X. split.
    - intros H pt Sp LA NEQ. destruct (C32_exact_partition flag g1 g2 G1 G2 S1 S2 AI pt Sp) as (E & _). destruct (E LA NEQ) as [E1 E2].
      assert (N1 : ~ exists k, holds (lost_set flag g1 g2 k) pt).
      { intros [k Hk]. destruct (diff_sets flag g1 g2 k G1 G2 S1 S2) as (_ & B & _). destruct (H k) as [_ Y].
        assert (T : reported A (lost_set flag g1 g2 k) = true) by (apply B; exists pt; auto). congruence. }
      assert (N2 : ~ exists k, holds (gained_set flag g1 g2 k) pt).
      { intros [k Hk]. destruct (diff_sets flag g1 g2 k G1 G2 S1 S2) as (_ & _ & B). destruct (H k) as [Y _].
        assert (T : reported A (gained_set flag g1 g2 k) = true) by (apply B; exists pt; auto). congruence. }
      rewrite E1 in N1. rewrite E2 in N2.
      assert (D1 : connects None g1 pt \/ ~ connects None g1 pt) by (apply (l_dec _ _ _ _ _ _ _ _ _ L); apply (all_usable A Q (q_src reg) (q_dst reg) a_tcp (q_space dom) a_mem (q_ok dom std_rest) (a_safe std_rest) vis q_put L QL g1 (good_cfg _ G1) (answer_ok _ _ S1))).
      assert (D2 : connects None g2 pt \/ ~ connects None g2 pt) by (apply (l_dec _ _ _ _ _ _ _ _ _ L); apply (all_usable A Q (q_src reg) (q_dst reg) a_tcp (q_space dom) a_mem (q_ok dom std_rest) (a_safe std_rest) vis q_put L QL g2 (good_cfg _ G2) (answer_ok _ _ S2))).
      clear - N1 N2 D1 D2. tauto.
    - intros H k. split.
      + destruct (reported A (gained_set flag g1 g2 k)) eqn:Y; [|reflexivity]. exfalso.
        apply (diff_sets flag g1 g2 k G1 G2 S1 S2) in Y as (pt & Sp & Hk).
        destruct (C32_exact_partition flag g1 g2 G1 G2 S1 S2 AI pt Sp) as (E & F & _). destruct (F k (or_intror Hk)) as [LA NEQ].
        destruct (E LA NEQ) as [_ E2]. specialize (H pt Sp LA NEQ). destruct (proj1 E2 (ex_intro _ k Hk)) as [Y1 Y2]. apply Y2. apply H. exact Y1.
      + destruct (reported A (lost_set flag g1 g2 k)) eqn:Y; [|reflexivity]. exfalso.
        apply (diff_sets flag g1 g2 k G1 G2 S1 S2) in Y as (pt & Sp & Hk).
        destruct (C32_exact_partition flag g1 g2 G1 G2 S1 S2 AI pt Sp) as (E & F & _). destruct (F k (or_introl Hk)) as [LA NEQ].
        destruct (E LA NEQ) as [E1 _]. specialize (H pt Sp LA NEQ). destruct (proj1 E1 (ex_intro _ k Hk)) as [Y1 Y2]. apply Y2. apply H. exact Y1. }
  assert (CNT : diff_count A Q h6 flag g1 g2 = List.length (filter (fun k => reported A (lost_set flag g1 g2 k)) categories ++ filter (fun k => reported A (gained_set flag g1 g2 k)) categories)).
  { rewrite diff_count_zero, app_length. clear. induction categories as [|k l IH]; [reflexivity|]. cbn [map filter].
    change (list_sum (?x :: ?l)) with (x + list_sum l). rewrite IH.
    destruct (reported A (lost_set flag g1 g2 k)), (reported A (gained_set flag g1 g2 k)); cbn [List.length]; lia. }
  assert (BR : identical A rid g1 g2 true <> SamePolicies -> a = if 0 <? diff_count A Q h6 flag g1 g2 then Answer false (if cmd then 1 else Z.of_nat (diff_count A Q h6 flag g1 g2)) false [] else Answer true 0 false []).
  { intros NI. unfold a, semantic_diff. destruct (identical A rid g1 g2 true); [reflexivity|congruence|reflexivity]. }
  destruct (identical A rid g1 g2 true) eqn:I.
  2:{ assert (EA : a = Answer true 0 false []) by (unfold a, semantic_diff; rewrite I; reflexivity). rewrite EA. cbn [a_bool a_num a_skip].
      split; [|split; [auto|split; [discriminate|auto]]]. split; [|auto]. intros _ pt Sp LA NEQ.
      unfold identical in I. destruct (comparable g1 g2) eqn:CP; cbn [negb andb] in I; [|discriminate].
      destruct (pdict_eqb A rid (policies (g_pols g1)) (policies (g_pols g2))) eqn:PD; [|discriminate].
      apply (comparable_spec vis g1 g2 (proj1 G1) (proj1 G2)) in CP as [CP _].
      rewrite (connects_on None g1 pt G1 S1 Sp), (connects_on None g2 pt G2 S2 Sp).
      apply (same_layers_allows A (q_src reg) (q_dst reg) a_tcp (q_space dom) a_mem (q_ok dom std_rest) (a_safe std_rest) vis L g1 g2 None pt (good_cfg _ G1) (good_cfg _ G2) CP); [|exact Sp].
      apply (same_policies_layers A (q_src reg) (q_dst reg) a_tcp (q_space dom) a_mem (q_ok dom std_rest) (a_safe std_rest) vis L rid RS g1 g2 (good_cfg _ G1) (good_cfg _ G2)); [|exact PD].
      exact (order_ok g1 g2 G1 G2 O PD). }
  all: rewrite BR by discriminate; clear BR; rewrite <- Z0, <- CNT; destruct (diff_count A Q h6 flag g1 g2) as [|m]; cbn [Nat.ltb Nat.leb a_bool a_num a_skip];
    (split; [|split; [|split]]); auto; try discriminate; split; try discriminate; auto.
Qed.

(** ** C33: redundancy *)
Lemma list_eqb_refl : forall {X} (f : X -> X -> bool) l, (forall x, In x l -> f x x = true) -> list_eqb f l l = true.
Proof using.
  intros X f l. induction l as [|x l IH]; intros H; [reflexivity|]. cbn [list_eqb]. rewrite (H x (or_introl eq_refl)). cbn [andb]. apply IH.
  intros y Hy. apply H. right. exact Hy.
Qed.
Context (RR : forall r, rid r r = true).
Lemma rule_eqb_refl : forall ps (p : policy) c r, policy_good ps p -> In r (p_ingress p ++ p_egress p) -> rule_eqb A rid c r r = true.
Proof using R HV NE RR.
  intros ps p c r (W & _ & CC) Hr.
  assert (E : c_eqb A (r_props r) (r_props r) = true).
  { apply (q_eqb_refl _ _ _ _ _ _ _ _ _ _ _ QL). split; [|apply CC; exact Hr]. destruct W as [W _]. exact (proj1 (W r Hr)). }
  unfold rule_eqb. destruct c; auto. rewrite E. destruct (r_action r); reflexivity.
Qed.
Lemma policy_eqb_self : forall ps (p : policy), policy_good ps p -> without_pass p -> policy_eqb A rid p p = true.
Proof using R HV NE RR.
  intros ps p G NP. pose proof G as (W & _ & CC). pose proof W as [W1 W2].
  assert (RO : forall ing, rules_ok (q_ok dom std_rest) (rules p ing)).
  { intros ing r Hr. assert (Hr' : In r (p_ingress p ++ p_egress p)) by (apply in_or_app; unfold rules in Hr; destruct ing; auto).
    split; [exact (proj1 (W1 r Hr'))|apply CC; exact Hr']. }
  assert (EQ : forall x, q_ok dom std_rest x -> c_eqb A x x = true) by (intros x; apply (q_eqb_refl _ _ _ _ _ _ _ _ _ _ _ QL)).
  assert (E0 : c_eqb A (c_empty A) (c_empty A) = true) by (apply EQ; apply (l_empty_ok _ _ _ _ _ _ _ _ _ L)).
  assert (EU : forall ing, c_eqb A (union_props A (rules p ing)) (union_props A (rules p ing)) = true).
  { intros ing. apply EQ. apply (union_props_spec A (q_src reg) (q_dst reg) a_tcp (q_space dom) a_mem (q_ok dom std_rest) (a_safe std_rest) vis L). apply RO. }
  assert (TR : forall ing, trip_eqb A (sync_props A p ing) (sync_props A p ing) = true).
  { intros ing. unfold sync_props. change (if ing then p_ingress p else p_egress p) with (rules p ing).
    destruct (class_of (p_kind p)) eqn:EC; cbn [trip_eqb]; rewrite ?EU, ?E0; try reflexivity.
    - assert (SF : calico_safe A (a_safe std_rest) (rules p ing)).
      { apply (calico_no_pass_safe A (q_src reg) (q_dst reg) a_tcp (q_space dom) a_mem (q_ok dom std_rest) (a_safe std_rest) vis L (rules p ing) (RO ing)).
        - intros r Hr. intros y Hy. apply (regular_solid dom std_rest reg vis _ _ (qa_alg _ _ _ _ _ _ QK)); [|apply Hy]. apply W1; [apply in_or_app; unfold rules in Hr; destruct ing; auto|apply calico_class; exact EC].
        - intros r Hr. apply NP; [apply calico_class; exact EC|]. apply in_or_app. unfold rules in Hr. destruct ing; auto. }
      destruct (calico_props A (rules p ing)) as [[al dn] pa] eqn:EP.
      destruct (calico_props_spec A (q_src reg) (q_dst reg) a_tcp (q_space dom) a_mem (q_ok dom std_rest) (a_safe std_rest) vis L (rules p ing) al dn pa (RO ing) SF EP) as ((K1 & K2 & K3) & _).
      cbn [trip_eqb]. rewrite (EQ al K1), (EQ dn K2), (EQ pa K3). reflexivity.
    - destruct ing; [|cbn [trip_eqb]; rewrite E0; reflexivity]. destruct (p_action p); cbn [trip_eqb]; rewrite ?EU, ?E0; reflexivity.
    - destruct ing; cbn [trip_eqb]; rewrite ?EU, ?E0; try reflexivity. rewrite EQ; [reflexivity|]. apply (l_rect_ok _ _ _ _ _ _ _ _ _ L); exact I.
    - destruct (p_action p); cbn [trip_eqb]; rewrite ?EU, ?E0; reflexivity. }
  assert (PE : peq (p_selected p) (p_selected p) = true) by (apply (peq_spec vis _ _ W2 W2); intros x; reflexivity).
  assert (LI : list_eqb (rule_eqb A rid (class_of (p_kind p))) (p_ingress p) (p_ingress p) = true).
  { apply list_eqb_refl. intros r Hr. apply (rule_eqb_refl ps p); [exact G|apply in_or_app; auto]. }
  assert (LE : list_eqb (rule_eqb A rid (class_of (p_kind p))) (p_egress p) (p_egress p) = true).
  { apply list_eqb_refl. intros r Hr. apply (rule_eqb_refl ps p); [exact G|apply in_or_app; auto]. }
  unfold policy_eqb. cbv zeta. rewrite !String.eqb_refl, !Bool.eqb_reflx, PE, LI, LE, !TR.
  destruct (class_of (p_kind p)) eqn:EC; cbn [pclass_eqb andb]; try reflexivity.
  - destruct (p_ord p) as [z|]; cbn [ord_eqb]; [apply Z.eqb_refl|reflexivity].
  - destruct (p_action p); reflexivity.
  - destruct (p_action p); reflexivity.
Qed.
(** Two configurations with the same peers whose layer [n] allows the same connections. *)
Definition same_layer (n : lname) (g1 g2 : config) : Prop :=
  forall pt, space pt -> looks_at true g1 g1 pt -> (connects (Some n) g1 pt <-> connects (Some n) g2 pt).
Definition has_pod (g : config) : Prop := exists x, member (g_peers g) x /\ ~ named_dns x.
Lemma looks_one : forall g pt, relevant (excludes6 h6 true g) (from pt) (to pt) <-> looks_at true g g pt.
Proof using. intros g pt. rewrite <- looks_rel. unfold excl. rewrite andb_diag. reflexivity. Qed.
Lemma ignores_one : forall g, excludes6 h6 true g = true <-> ignores6 true g g.
Proof using. intros g. rewrite <- ignores_excl. unfold excl. rewrite andb_diag. reflexivity. Qed.
Lemma same_layer_iff : forall n g1 g2, good g1 -> good g2 -> g_peers g2 = g_peers g1 -> has_pod g1 ->
  (same_layer n g1 g2 <-> forall pt, space pt -> relevant (excludes6 h6 true g1) (from pt) (to pt) ->
     (allows_on A (q_src reg) (q_dst reg) a_tcp a_mem (Some n) g1 pt <-> allows_on A (q_src reg) (q_dst reg) a_tcp a_mem (Some n) g2 pt)).
Proof using R HV NE.
  intros n g1 g2 G1 G2 EP HP. assert (S1 : answerable (Some n) g1) by exact HP. assert (S2 : answerable (Some n) g2) by (cbn; rewrite EP; exact HP).
  unfold same_layer. split; intros H pt Sp Rl; specialize (H pt Sp); rewrite looks_one in *;
    rewrite <- (connects_on _ g1 pt G1 S1 Sp), <- (connects_on _ g2 pt G2 S2 Sp) in *; auto.
Qed.
Lemma plain_without : forall g p, plain g -> plain (without_policy A rid g p).
Proof using. intros g p P. apply plain_clone; [exact P|]. intros q Hq. apply filter_In in Hq as [Hq _]. apply P. exact Hq. Qed.
(** A policy is called redundant only if its layer allows the same connections without it; if IPv6 is left out, then also
    if it does. *)
Theorem C33_redundant_policy : forall g n p, plain g -> has_pod g -> In p (policy_list g) ->
  let g' := without_policy A rid g p in
  ~ In p (policy_list g') /\ (forall q, In q (policy_list g) -> policy_eqb A rid q p = false -> In q (policy_list g')) /\
  (redundant A Q h6 rid g n p = true -> same_layer n g g') /\
  (ignores6 true g g -> same_layer n g g' -> redundant A Q h6 rid g n p = true).
Proof using R HV NE RS RR.
  intros g n p P HP Hp g'. pose proof (plain_good g P) as G. pose proof (plain_without g p P) as P'. fold g' in P'. pose proof (plain_good g' P') as G'.
  pose proof P as (_ & LD & HG). destruct (HG p Hp) as [Gp NP]. pose proof (policy_eqb_self _ p Gp NP) as SE.
  assert (PL : policy_list g' = filter (fun q => negb (policy_eqb A rid q p)) (policy_list g)) by (apply filtered_list; apply loaded_inv; exact LD).
  destruct (spec redundant_spec rid h6 RS g n p (good_cfg _ G) (good_cfg _ G') (loaded_inv g LD) HP Hp SE) as [T1 T2].
  fold g' in T1, T2. rewrite (same_layer_iff n g g' G G' eq_refl HP), <- ignores_one.
  split; [|split; [|split; [exact T1|exact T2]]].
  - rewrite PL. intros H. apply filter_In in H as [_ H]. rewrite SE in H. discriminate.
  - intros q Hq E. rewrite PL. apply filter_In. rewrite E. auto.
Qed.
(** The policy without some of its rules. *)
Definition keeps (p m : policy) : Prop :=
  p_selected m = p_selected p /\ p_kind m = p_kind p /\ (forall r, In r (p_ingress m) -> In r (p_ingress p)) /\ (forall r, In r (p_egress m) -> In r (p_egress p)).
Lemma good_keeps : forall ps (p m : policy), keeps p m -> policy_good ps p /\ without_pass p -> policy_good ps m /\ without_pass m.
Proof using.
  intros ps p m (E1 & E2 & K1 & K2) [((W1 & W2) & (C1 & C2 & C3) & CC) NP].
  assert (K : forall r, In r (p_ingress m ++ p_egress m) -> In r (p_ingress p ++ p_egress p)).
  { intros r Hr. apply in_app_or in Hr as [Hr|Hr]; apply in_or_app; auto. }
  split; [split; [|split]|].
  - split; [intros r Hr; destruct (W1 r (K r Hr)) as [X1 X2]; split; [exact X1|intros C; apply X2; unfold is_calico in *; rewrite <- E2; exact C]|rewrite E1; exact W2].
  - unfold confined. rewrite E1. split; [|split]; [intros r pt Sp Hr; apply C1; auto|intros r pt Sp Hr; apply C2; auto|exact C3].
  - intros r Hr. apply CC. auto.
  - intros IC r Hr. apply NP; [unfold is_calico in *; rewrite <- E2; exact IC|auto].
Qed.
Lemma clone_keeps : forall (p : policy) r ing, keeps p (clone_without_rule A rid p r ing).
Proof using.
  intros p r ing. unfold keeps, clone_without_rule. cbn [p_selected p_kind p_ingress p_egress]. split; [reflexivity|]. split; [reflexivity|].
  split; intros s Hs; destruct (class_of (p_kind p)), ing; cbn [In] in Hs; try contradiction; auto; apply filter_In in Hs; apply Hs.
Qed.
Lemma replaced_clone : forall (g : config) p m, replaced A rid g p m = with_policies g (filter (fun q => negb (policy_eqb A rid q p)) (policy_list g) ++ [m]).
Proof using. intros g p m. unfold replaced, add_one, without_policy, with_policies. cbn [g_peers g_services g_pols]. unfold add_all. rewrite fold_left_app. reflexivity. Qed.
(** A rule that is equal to no other rule of its policy is called redundant only if its layer allows the same connections
    when the policy is replaced by a copy without the rule (which is added after the other policies); if IPv6 is left
    out, then also if it does. *)
Definition unique_rule (p : policy) (ing : bool) (r : rule) : Prop :=
  exists pre post, rules_of p ing = pre ++ r :: post /\ forall s, In s (pre ++ post) -> rule_eqb A rid (class_of (p_kind p)) s r = false.
Definition with_rules (p : policy) (ing : bool) (rs : list rule) : policy :=
  Policy (p_name p) (p_ns p) (p_kind p) (p_affects_in p) (p_affects_eg p) (p_selected p)
         (if ing then rs else p_ingress p) (if ing then p_egress p else rs) (p_ord p) (p_action p).
Theorem C33_redundant_rule : forall g n p ing r, plain g -> has_pod g -> In p (policy_list g) ->
  (p_kind p = TIstioAP -> ing = true) -> (p_kind p = TSidecar -> ing = false) -> unique_rule p ing r ->
  let m := clone_without_rule A rid p r ing in let g' := replaced A rid g p m in
  (h6 m = true -> h6 p = true) ->
  ((p_kind p <> TIstioAP -> p_kind p <> TSidecar -> m = with_rules p ing (rules_of m ing)) /\
   (forall s, In s (rules_of m ing) <-> In s (rules_of p ing) /\ s <> r)) /\
  (rule_redundant A Q h6 rid g n p ing r = true -> same_layer n g g') /\
  (ignores6 true g g -> same_layer n g g' -> rule_redundant A Q h6 rid g n p ing r = true).
Proof using R HV NE RS RR.
  intros g n p ing r P HP Hp K1 K2 U m g' H6. pose proof U as (pre & post & ER & UR).
  pose proof (plain_good g P) as G. pose proof P as (_ & LD & HG). destruct (HG p Hp) as [Gp NP].
  assert (C1 : class_of (p_kind p) <> CIstioAP \/ ing = true) by (destruct (p_kind p); cbn; auto; left; discriminate).
  assert (C2 : class_of (p_kind p) <> CSidecar \/ ing = false) by (destruct (p_kind p); cbn; auto; left; discriminate).
  assert (Hr : In r (rules_of p ing)) by (rewrite ER; apply in_or_app; right; left; reflexivity).
  assert (Rr : rule_eqb A rid (class_of (p_kind p)) r r = true).
  { apply (rule_eqb_refl _ p _ r Gp). apply in_or_app. unfold rules_of in Hr. destruct ing; auto. }
  assert (P' : plain g').
  { unfold g'. rewrite replaced_clone. apply plain_clone; [exact P|]. intros q Hq. apply in_app_or in Hq as [Hq|[<-|[]]].
    - apply filter_In in Hq as [Hq _]. apply HG. exact Hq.
    - apply (good_keeps _ p m (clone_keeps p r ing)). apply HG. exact Hp. }
  pose proof (plain_good g' P') as G'.
  assert (UN : forall q, In q (policy_list g) -> key q = key p -> policy_eqb A rid q p = true).
  { intros q Hq E. assert (q = p); [|subst q; apply (policy_eqb_self _ p Gp NP)].
    pose proof (loaded_inv g LD) as I. pose proof (inv_keys _ I) as ND. destruct (list_keys g I) as [EK _]. rewrite EK in ND. clear - Hq Hp E ND.
    induction (policy_list g) as [|x l IH]; [destruct Hq|]. inversion ND as [|? ? N1 N2]; subst. destruct Hq as [->|Hq], Hp as [->|Hp]; auto.
    - exfalso. apply N1. rewrite E. apply in_map. exact Hp.
    - exfalso. apply N1. rewrite <- E. apply in_map. exact Hq. }
  destruct (spec rule_redundant_spec rid h6 RS g n p ing r (good_cfg _ G) (good_cfg _ G') (loaded_inv g LD) HP Hp (policy_eqb_self _ p Gp NP) Hr Rr UN H6 U C1 C2) as [T1 T2].
  fold m in T1, T2. fold g' in T1, T2. rewrite (same_layer_iff n g g' G G' eq_refl HP), <- ignores_one. split; [|split; [exact T1|exact T2]].
  assert (RL : rules_of m ing = filter (fun s => negb (rule_eqb A rid (class_of (p_kind p)) s r)) (rules_of p ing)).
  { unfold m, rules_of, clone_without_rule. destruct ing, (class_of (p_kind p)); cbn [p_ingress p_egress]; auto; exfalso; destruct C1, C2; congruence. }
  split.
  { intros N1 N2. unfold m, with_rules, rules_of, clone_without_rule.
    destruct ing, (p_kind p); cbn [class_of p_ingress p_egress]; try reflexivity; congruence. }
  intros s. rewrite RL, filter_In, ER. split.
  - intros [Hs E]. split; [exact Hs|]. intros ->. rewrite Rr in E. discriminate.
  - intros [Hs E]. split; [exact Hs|]. rewrite UR; [reflexivity|]. apply in_app_or in Hs as [Hs|[Hs|Hs]]; [apply in_or_app; auto|congruence|apply in_or_app; auto].
Qed.
(** A rule of a Kubernetes, Istio or gateway policy that is equal to another one is called redundant, and the policy says
    the same without it. *)
Theorem C33_twin_rule : forall g n p ing r pre post s, plain g -> In p (policy_list g) ->
  ~ is_calico p -> p_kind p <> TSidecar -> (p_kind p = TIstioAP -> ing = true) ->
  rules_of p ing = pre ++ r :: post -> In s (pre ++ post) -> rule_eqb A rid (class_of (p_kind p)) s r = true ->
  rule_redundant A Q h6 rid g n p ing r = true /\
  forall dir pt a, space pt -> (opinion p dir pt a <-> opinion (with_rules p ing (pre ++ post)) dir pt a).
Proof using R HV NE RR.
  intros g n p ing r pre post s P Hp NC NS K1 ER Hs E. pose proof P as (_ & LD & HG). destruct (HG p Hp) as [Gp NP].
  assert (C1 : class_of (p_kind p) <> CIstioAP \/ ing = true) by (destruct (p_kind p); cbn; auto; left; discriminate).
  assert (C2 : class_of (p_kind p) <> CSidecar) by (destruct (p_kind p); cbn; congruence).
  assert (C3 : class_of (p_kind p) <> CCalico) by (rewrite <- calico_class; exact NC).
  assert (IN : forall x, In x (rules_of p ing) -> In x (p_ingress p ++ p_egress p)) by (intros x Hx; apply in_or_app; unfold rules_of in Hx; destruct ing; auto).
  assert (INs : In s (rules_of p ing)) by (rewrite ER; apply in_app_or in Hs as [Hs|Hs]; apply in_or_app; [left|right; right]; auto).
  assert (INr : In r (rules_of p ing)) by (rewrite ER; apply in_or_app; right; left; reflexivity).
  assert (OK : forall x, In x (rules_of p ing) -> q_ok dom std_rest (r_props x)).
  { intros x Hx. destruct Gp as ((W & _) & _ & CC). split; [exact (proj1 (W x (IN x Hx)))|apply CC; apply IN; exact Hx]. }
  assert (EM : forall pt, space pt -> (pt @ r_props s <-> pt @ r_props r)).
  { apply (l_eqb _ _ _ _ _ _ _ _ _ L); auto. unfold rule_eqb in E. destruct (class_of (p_kind p)); try exact E; congruence. }
  split.
  - unfold rule_redundant. change (if ing then p_ingress p else p_egress p) with (rules_of p ing).
    set (m := clone_without_rule A rid p r ing). change (if ing then p_ingress m else p_egress m) with (rules_of m ing).
    assert (RL : rules_of m ing = filter (fun s => negb (rule_eqb A rid (class_of (p_kind p)) s r)) (rules_of p ing)).
    { unfold m, rules_of, clone_without_rule. destruct ing, (class_of (p_kind p)); cbn [p_ingress p_egress]; auto; exfalso; destruct C1; congruence. }
    assert (Rr : rule_eqb A rid (class_of (p_kind p)) r r = true) by (apply (rule_eqb_refl _ p _ r Gp); auto).
    assert (LT : List.length (rules_of m ing) < List.length (rules_of p ing) - 1).
    { rewrite RL, ER, filter_app. cbn [filter]. rewrite Rr. cbn [negb]. rewrite <- filter_app.
      pose proof (filter_lt (fun s => negb (rule_eqb A rid (class_of (p_kind p)) s r)) (pre ++ post) s Hs) as F. cbv beta in F. rewrite E in F. specialize (F eq_refl).
      rewrite !app_length in *. cbn [List.length]. lia. }
    apply Nat.ltb_lt in LT. rewrite LT. reflexivity.
  - intros dir pt a Sp.
    assert (SR : some_rule (rules_of p ing) pt <-> some_rule (pre ++ post) pt).
    { rewrite ER. unfold some_rule. split; intros (x & Hx & M).
      - apply in_app_or in Hx as [Hx|[<-|Hx]]; [exists x; split; [apply in_or_app; auto|auto]|exists s; split; [auto|apply EM; auto]|exists x; split; [apply in_or_app; auto|auto]].
      - exists x. split; [|exact M]. apply in_app_or in Hx as [Hx|Hx]; apply in_or_app; [left|right; right]; auto. }
    assert (SD : some_rule (rules_of p dir) pt <-> some_rule (rules_of (with_rules p ing (pre ++ post)) dir) pt).
    { unfold rules_of in SR. unfold rules_of, with_rules. cbn [p_ingress p_egress]. destruct dir, ing; auto; reflexivity. }
    unfold opinion. change (p_kind (with_rules p ing (pre ++ post))) with (p_kind p). change (p_action (with_rules p ing (pre ++ post))) with (p_action p).
    destruct (p_kind p) eqn:Ek; try reflexivity; try (rewrite SD; reflexivity); try solve [exfalso; apply NC; unfold is_calico; auto]; try congruence.
    destruct dir; [|split; intros (X & _); discriminate]. unfold rules_of in SD. rewrite SD. reflexivity.
Qed.
(** What the query looks at and counts: all layers but those of the gateways. *)
Definition queried (g : config) (n : lname) (pols : list policy) : Prop := In (n, pols) (lays (g_pols g)) /\ n <> LK8sGateway /\ n <> LIstioGateway.
Theorem C33_answer : forall g, let a := redundancy A Q h6 rid g in
  (a_bool a = true <->
    (exists n pols p, queried g n pols /\ 1 < List.length pols /\ In p pols /\ redundant A Q h6 rid g n p = true) \/
    (exists n pols p ing r, queried g n pols /\ In p pols /\ In r (rules_of p ing) /\ rule_redundant A Q h6 rid g n p ing r = true)) /\
  (a_bool a = true <-> (0 < a_num a)%Z).
Proof using.
  intros g. split; [apply redundancy_iff|]. unfold redundancy. destruct (red_count (redundancy_state A Q h6 rid g)) as [|k]; cbn [Nat.ltb Nat.leb a_bool a_num]; split; try discriminate; try lia.
Qed.

(** ** C34: disjointness, emptiness, vacuity and capture *)
(** The reported pairs are the pairs of policies of a layer with a selected peer in common, each once. *)
Definition distinct_policies (g : config) : Prop := forall p q, In p (policy_list g) -> In q (policy_list g) -> policy_eqb A rid p q = true -> p = q.
Theorem C34_disjointness : forall g, plain g -> distinct_policies g ->
  let a := disjointness A rid g in let l := overlaps A rid g in
  (a_bool a = true <-> forall n pols p q, queried g n pols -> earlier q p pols -> forall x, ~ (pt_in x (p_selected p) /\ pt_in x (p_selected q))) /\
  a_num a = Z.of_nat (List.length l) /\ NoDup l /\
  forall p q, In (p, q) l <-> exists n pols, queried g n pols /\ earlier q p pols /\ exists x, pt_in x (p_selected p) /\ pt_in x (p_selected q).
Proof using R HV NE RR.
  clear h6. intros g P D a l. pose proof P as (_ & LD & HG).
  destruct (overlaps_spec A vis rid g (loaded_inv g LD)) as [O ND].
  { intros p q Hp Hq. split; [apply D; auto|]. intros <-. destruct (HG p Hp) as [Gp NP]. apply (policy_eqb_self _ p Gp NP). }
  { intros p Hp. destruct (HG p Hp) as [((_ & W) & _) _]. exact W. }
  fold l in O, ND.
  assert (O' : forall p q, In (p, q) l <-> exists n pols, queried g n pols /\ earlier q p pols /\ exists x, pt_in x (p_selected p) /\ pt_in x (p_selected q)).
  { intros p q. rewrite O. split; intros (n & pols & H); exists n, pols; unfold queried, common in *; tauto. }
  split; [|split; [reflexivity|split; [exact ND|exact O']]].
  unfold a, disjointness. fold l. cbn [a_bool]. rewrite Nat.eqb_eq. split.
  - intros E n pols p q Hq He x Hx. assert (X : In (p, q) l) by (apply O'; exists n, pols; eauto). destruct l; [destruct X|discriminate].
  - intros H. destruct l as [|[p q] t]; [reflexivity|]. exfalso. destruct (proj1 (O' p q) (or_introl eq_refl)) as (n & pols & H1 & H2 & x & Hx). apply (H n pols p q H1 H2 x Hx).
Qed.
(** Empty policies and rules: the query is positive exactly if a policy selects no peer or a rule has no peers. *)
Definition blocks_inhabited (g : config) : Prop := forall n pols p, In (n, pols) (lays (g_pols g)) -> In p pols ->
  no_void (p_selected p) /\ forall r, In r (p_ingress p ++ p_egress p) -> no_void (r_src r) /\ no_void (r_dst r).
Definition empty_rule (p : policy) (r : rule) : Prop :=
  (forall x, ~ pt_in x (r_src r)) \/ (is_calico p /\ forall x, ~ pt_in x (r_dst r)).
Definition considered (p : policy) (ing : bool) : Prop :=
  match p_kind p with
  | TK8s | TCalico | TCalicoGlobal | TCalicoProfile | TIngress | TGatewayPolicy => True
  | TIstioAP => ing = true | TSidecar => ing = false | _ => False
  end.
Lemma considered_class : forall (p : policy) ing, looked_at p ing <-> considered p ing.
Proof using. clear. intros p ing. unfold looked_at, considered. destruct (p_kind p); cbn; tauto. Qed.
Lemma empty_class : forall (p : policy) r, no_peers p r <-> empty_rule p r.
Proof using. clear. intros p r. unfold no_peers, empty_rule. rewrite calico_class. destruct (p_kind p); cbn; intuition discriminate. Qed.
Theorem C34_emptiness : forall g : config, blocks_inhabited g ->
  let a := @emptiness conns g in
  (a_bool a = true <-> exists n pols p, In (n, pols) (lays (g_pols g)) /\ In p pols /\
     ((forall x, ~ pt_in x (p_selected p)) \/ exists ing r, considered p ing /\ In r (rules_of p ing) /\ empty_rule p r)) /\
  (a_bool a = true <-> (0 < a_num a)%Z) /\
  forall n pols p ing k, In (n, pols) (lays (g_pols g)) -> In p pols ->
    (In k (empty_rules p ing) <-> considered p ing /\ exists r, 1 <= k /\ nth_error (rules_of p ing) (k - 1) = Some r /\ empty_rule p r).
Proof using.
  clear rid h6 RS RR. intros g B a.
  assert (LP : forall p, In p (layer_policies g) <-> exists n pols, In (n, pols) (lays (g_pols g)) /\ In p pols).
  { intros p. unfold layer_policies. rewrite in_flat_map. split; [intros ([n pols] & H1 & H2); eauto|intros (n & pols & H1 & H2); exists (n, pols); auto]. }
  split; [|split].
  - unfold a. rewrite emptiness_iff.
    + split.
      * intros (p & Hp & H). apply LP in Hp as (n & pols & H1 & H2). exists n, pols, p. split; [auto|]. split; [auto|].
        destruct H as [H|(ing & r & X1 & X2 & X3)]; [left; exact H|right; exists ing, r; rewrite <- considered_class, <- empty_class; auto].
      * intros (n & pols & p & H1 & H2 & H). exists p. split; [apply LP; eauto|].
        destruct H as [H|(ing & r & X1 & X2 & X3)]; [left; exact H|right; exists ing, r; rewrite considered_class, empty_class; auto].
    + intros p Hp. apply LP in Hp as (n & pols & H1 & H2). apply (B n pols p H1 H2).
  - unfold a, emptiness. cbn [a_bool a_num]. rewrite Nat.ltb_lt. lia.
  - intros n pols p ing k H1 H2. rewrite empty_rules_spec, considered_class.
    + apply and_iff_compat_l. split; intros (r & X1 & X2 & X3); exists r; [rewrite <- empty_class|rewrite empty_class]; auto.
    + intros r Hr. apply (B n pols p H1 H2). apply in_or_app. unfold rules in Hr. destruct ing; auto.
Qed.
(** Vacuous: without its policies (gateways aside) the configuration allows the same. *)
Theorem C34_vacuity : forall g, plain g -> answerable None (without_gateways g) ->
  let a := vacuity A Q h6 rid g in let g' := without_gateways g in
  let vacuous := forall pt, space pt -> looks_at true g' g' pt -> (connects None g' pt <-> connects None (no_policies g) pt) in
  (a_bool a = true -> vacuous) /\ (ignores6 true g' g' -> vacuous -> a_bool a = true) /\ a_num a = (if a_bool a then 1 else 0)%Z /\
  forall pt, space pt -> looks_at true g' g' pt -> (member (g_peers g) (from pt) \/ is_addr (from pt)) -> (member (g_peers g) (to pt) \/ is_addr (to pt)) ->
    (connects None (no_policies g) pt <-> ~ named_hep (from pt) /\ ~ named_hep (to pt)).
Proof using R HV NE RS.
  intros g P S a g' vacuous. pose proof (plain_without_gateways g P) as P'. fold g' in P'. pose proof P as (HC & LD & _).
  destruct (spec vacuity_spec rid h6 RS g HC (good_cfg _ (plain_good _ P')) (answer_ok _ _ S) LD) as (T1 & T2 & T3).
  fold g' in T1, T2. fold a in T1, T2, T3. clearbody a.
  assert (V : vacuous <-> forall pt, space pt -> relevant (excludes6 h6 true g') (from pt) (to pt) -> (allows A a_mem g' pt <-> allows A a_mem (no_policies g) pt)).
  { unfold vacuous. split; intros H pt Sp; specialize (H pt Sp); rewrite looks_one in *; exact H. }
  rewrite V, <- ignores_one. split; [exact T1|]. split; [exact T2|]. split; [rewrite T3; destruct (a_bool a); reflexivity|].
  intros pt Sp LA H1 H2. destruct (no_policies_ok A (q_src reg) (q_dst reg) a_tcp (q_space dom) a_mem (q_ok dom std_rest) (a_safe std_rest) vis L g HC) as (_ & _ & M).
  apply (M pt Sp); [|unfold anywhere; tauto|unfold anywhere; tauto]. apply looks_one in LA. apply LA.
Qed.
(** All pods captured: in the Kubernetes/Calico layer by ingress and by egress policies, in the Istio layer by ingress ones. *)
Definition affected (p : policy) (ing : bool) : Prop := (if ing then p_affects_in p else p_affects_eg p) = true.
Definition captures_all (g : config) (pols : list policy) (ing : bool) : Prop :=
  forall x, member (g_peers g) x -> ~ named_dns x -> exists p, In p pols /\ affected p ing /\ pt_in x (p_selected p).
Theorem C34_all_captured : forall g, good g ->
  let a := @all_captured conns pod_name g in
  (a_bool a = true <->
    has_plain_layer g /\
    (forall pols, lget (lays (g_pols g)) LK8sCalico = Some pols -> captures_all g pols true /\ captures_all g pols false) /\
    (forall pols, lget (lays (g_pols g)) LIstio = Some pols -> captures_all g pols true)).
Proof using.
  clear rid RS RR h6. intros g (HC & LD & HG & _) a. unfold a. rewrite (all_captured_spec vis).
  - assert (X : forall pols ing, captured_in g pols ing <-> captures_all g pols ing).
    { intros pols ing. unfold captured_in, captures_all, pod. split; intros H x; [intros H1 H2; apply (H x (conj H1 H2))|intros [H1 H2]; apply (H x H1 H2)]. }
    assert (Y : policies (g_pols g) <> [] <-> policy_list g <> []) by (unfold policy_list; destruct (policies (g_pols g)); cbn [map]; split; congruence).
    unfold has_plain_layer. rewrite Y. split.
    + intros (H1 & H2 & H3 & H4). split; [split; auto|]. split; intros pols E; [specialize (H3 pols E); rewrite !X in H3; exact H3|specialize (H4 pols E); rewrite X in H4; exact H4].
    + intros ((H1 & H2) & H3 & H4). split; [auto|]. split; [auto|]. split; intros pols E; [specialize (H3 pols E); rewrite <- !X in H3; exact H3|specialize (H4 pols E); rewrite <- X in H4; exact H4].
  - apply loaded_inv. exact LD.
  - exact HC.
  - intros n pols p Hn Hp. destruct (HG p) as ((_ & W) & _); [|exact W]. apply (layer_policy g n pols p (loaded_inv g LD) Hn Hp).
Qed.
End Queries.
