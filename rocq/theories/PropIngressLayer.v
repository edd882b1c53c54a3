(** * C61: what Ingress documents do to the connections of a configuration. *)
From Coq Require Import ZArith List Bool Arith Lia String Ascii.
From Verif Require Import IntervalModel IntervalFacts HyperModel HyperFacts HyperOps HyperDims HyperTop HyperInst PropHyperCube ConnModel ConnFacts TextModel PortProtoModel
                          PeerModel PeerFacts PeerSetFacts PolicyModel PolicyLaws PolicyFacts LayerFacts OrderFacts ConnAlg StdDims PropLayers YamlModel ClusterModel ConnDict
                          SelectorFacts PropSelectors K8sParserModel K8sParserFacts IstioValueModel PropIstioValues IstioRuleFacts
                          ServiceModel PropServices IngressModel PropIngressPaths IngressDocs PropIngress.
Import ListNotations.
Local Open Scope list_scope.
Local Open Scope nat_scope.
Local Opaque min_pod_index max_pod_index min_ipv6_index max_ipv6_index max_ipv4_index v4max v6min v6max.

(** The peer is a pod of the ingress controller. *)
Definition controller_at (cl : cluster) (ks : list k8s_service) (x : point) : Prop := exists k i, controller cl ks (Named k i) /\ x = PN k i.

Section Layer.
Context (reg : list peer) (R : reg_ok reg) (cl : cluster) (Hc : cluster_ok cl) (HC : container reg (cl_peers cl)).
Context (Hp : forall p nm n pr, assoc_s nm (cl_ports cl p) = Some (n, pr) -> (1 <= n <= 65535)%Z).
Context (ks : list k8s_service) (svcs : list service) (HS : set_services cl ks = Some svcs).
Context (code : word -> Z) (dfa : list ascii -> val) (CO : code_ok code).
Let K := std_alg reg R.
Let A := cube_ops std_dom std_all reg.
Let W := cube_laws std_dom std_rest reg reg std_peers [Ivl 0 255] K.
Notation space := (a_space std_dom).
Notation from := (a_src reg).
Notation to := (a_dst reg).
Notation parse := (ingress_policy std_dom reg cl ks svcs dfa).
(** The documents, and the policies made from them in any order. *)
Context (docs : list yaml) (pols : list policy).
Context (SB : forall p, In p pols -> exists y, In y docs /\ parse y = Some (Some p)) (SF : forall y, In y docs -> exists p, In p pols /\ parse y = Some (Some p)).
Context (B : forall y name ns d rules, In y docs -> ingress_doc y name ns d rules -> ingress_benign cl ks code dfa ns d rules).
Definition all_fair (h : word) : Prop := forall y name ns d rules x hv, In y docs -> ingress_doc y name ns d rules -> In x rules -> rule_host x hv -> fair hv h.
(** Some document has the request served by this port of this peer. *)
Definition some_serves (h w : word) (x : point) (n : Z) : Prop :=
  exists y name ns d rules, In y docs /\ ingress_doc y name ns d rules /\ ingress_serves cl ks ns d rules h w x n.

Lemma policy_facts : forall p, In p pols -> exists y name ns d rules, In y docs /\ ingress_doc y name ns d rules /\
  p_kind p = TIngress /\ p_affects_in p = false /\ p_affects_eg p = true /\ p_ingress p = [] /\ p_action p = Allow /\ (forall x, pt_in x (p_selected p) <-> controller_at cl ks x) /\
  policy_wf std_dom std_rest reg p /\ confined std_dom reg (cl_peers cl) p /\
  forall pt h w, space pt -> words_at code pt h w -> h <> [] -> all_fair h ->
    (some_rule (p_egress p) pt <-> pt_in (from pt) (p_selected p) /\ pt 2 = 6%Z /\ ingress_serves cl ks ns d rules h w (to pt) (pt 4)).
Proof using R Hc HC Hp HS CO SB B.
  intros p H. destruct (SB p H) as (y & Hy & E). destruct (C60_ingress_policy reg R cl Hc HC Hp ks svcs HS code dfa CO y p E) as (name & ns & d & rules & D & _ & _ & Ek & Ai & Ae & Ei & Ea & Sel & X).
  destruct (X (B y name ns d rules Hy D)) as (Wf & Cf & _ & M). exists y, name, ns, d, rules. repeat (split; [assumption|]). split; [|split; [exact Wf|split; [exact Cf|]]].
  - destruct (controller_spec cl Hc ks svcs HS) as (Cp & Ci & _).
    assert (Pl : plain (p_selected p)) by (intros q Hq; apply Cp; apply Ci; apply Sel; exact Hq).
    intros x. rewrite (plain_pt _ _ Pl). unfold controller_at. split.
    + intros (q & Hq & k & i & -> & ->). exists k, i. split; auto. apply Sel. exact Hq.
    + intros (k & i & Hk & ->). exists (Named k i). split; [apply Sel; exact Hk|eauto].
  - intros pt h w Sp Wd Nh Fh. apply M; auto. intros x hv Hx Rx. exact (Fh y name ns d rules x hv Hy D Hx Rx).
Qed.
Lemma all_exact : exact_policies std_dom std_rest reg pols /\ (forall p, In p pols -> confined std_dom reg (cl_peers cl) p).
Proof using R Hc HC Hp HS CO SB B.
  split; [split|].
  - intros p H. destruct (policy_facts p H) as (y & name & ns & d & rules & _ & _ & _ & _ & _ & _ & _ & _ & Wf & _). exact Wf.
  - left. intros p H HK. exfalso. destruct (policy_facts p H) as (y & name & ns & d & rules & _ & _ & Ek & _). unfold is_calico in HK. rewrite Ek in HK. destruct HK as [HK|[HK|HK]]; discriminate.
  - intros p H. destruct (policy_facts p H) as (y & name & ns & d & rules & _ & _ & _ & _ & _ & _ & _ & _ & _ & Cf & _). exact Cf.
Qed.
Lemma not_selected_in : forall x, ~ selected_by pols true x.
Proof using R Hc HC Hp HS CO SB B.
  intros x (p & H & S). destruct (policy_facts p H) as (y & name & ns & d & rules & _ & _ & Ek & Ai & _). destruct S as [_ S]. rewrite Ek, Ai in S. discriminate.
Qed.
Lemma selected_eg : forall x, selected_by pols false x <-> docs <> [] /\ controller_at cl ks x.
Proof using R Hc HC Hp HS CO SB SF B.
  intros x. split.
  - intros (p & H & S). destruct (policy_facts p H) as (y & name & ns & d & rules & Hy & _ & _ & _ & _ & _ & _ & Sel & _). split; [intros ->; destruct Hy|]. apply Sel. apply S.
  - intros [Ne Cx]. destruct docs as [|y ds] eqn:Ed; [congruence|]. destruct (SF y (or_introl eq_refl)) as (p & H & _). rewrite <- Ed in *. exists p. split; auto.
    destruct (policy_facts p H) as (y' & name & ns & d & rules & _ & _ & Ek & _ & Ae & _ & _ & Sel & _). split; [apply Sel; exact Cx|]. rewrite Ek. exact Ae.
Qed.
Lemma in_verdict : forall pt a, ~ verdict reg pols true pt a.
Proof using R Hc HC Hp HS CO SB B.
  intros pt a V. exact (not_selected_in (to pt) (verdict_selected reg pols true pt a V)).
Qed.
Lemma doc_fn : forall y p name ns d rules, In p pols -> parse y = Some (Some p) -> In y docs -> ingress_doc y name ns d rules ->
  forall pt h w, space pt -> words_at code pt h w -> h <> [] -> all_fair h ->
    (some_rule (p_egress p) pt <-> pt_in (from pt) (p_selected p) /\ pt 2 = 6%Z /\ ingress_serves cl ks ns d rules h w (to pt) (pt 4)).
Proof using R Hc HC Hp HS CO B.
  intros y p name ns d rules H E Hy D pt h w Sp Wd Nh Fh. destruct (C60_ingress_policy reg R cl Hc HC Hp ks svcs HS code dfa CO y p E) as (name' & ns' & d' & rules' & D' & _ & _ & _ & _ & _ & _ & _ & _ & X).
  destruct (ingress_doc_fn _ _ _ _ _ _ _ _ _ D D') as (-> & -> & -> & ->). destruct (X (B y name ns d rules Hy D)) as (_ & _ & _ & M). apply M; auto. intros x hv Hx Rx. exact (Fh y name ns d rules x hv Hy D Hx Rx).
Qed.
Lemma eg_verdict : forall pt h w, space pt -> words_at code pt h w -> h <> [] -> all_fair h ->
  forall a, verdict reg pols false pt a <-> a = Allow /\ controller_at cl ks (from pt) /\ pt 2 = 6%Z /\ some_serves h w (to pt) (pt 4).
Proof using R Hc HC Hp HS CO SB SF B.
  intros pt h w Sp Wd Nh Fh a.
  assert (Op : forall p, In p pols -> forall a, opinion p false pt a <-> a = Allow /\ some_rule (p_egress p) pt).
  { intros p H b. destruct (policy_facts p H) as (y & name & ns & d & rules & _ & _ & Ek & _ & _ & _ & Ea & _). unfold opinion. rewrite Ek, Ea. cbn [rules_of]. split; [tauto|]. intros [-> X]. auto. }
  split.
  - intros (pre & p & post & E & S & O & _). assert (H : In p pols) by (rewrite E; apply in_or_app; right; left; auto).
    apply (Op p H) in O as [-> O]. destruct (policy_facts p H) as (y & name & ns & d & rules & Hy & D & _ & _ & _ & _ & _ & Sel & _ & _ & M).
    apply (M pt h w Sp Wd Nh Fh) in O as (S1 & T & Sv). split; auto. split; [apply Sel; exact S1|]. split; auto. exists y, name, ns, d, rules. auto.
  - intros (-> & Cx & T & (y & name & ns & d & rules & Hy & D & Sv)). destruct (SF y Hy) as (p & H & E).
    assert (Sl : forall q, In q pols -> selects q false (from pt)).
    { intros q Hq. destruct (policy_facts q Hq) as (y' & name' & ns' & d' & rules' & _ & _ & Ek & _ & Ae & _ & _ & Sel & _). split; [apply Sel; exact Cx|]. rewrite Ek. exact Ae. }
    assert (Dc : forall q, In q pols -> (exists b, selects q false (from pt) /\ opinion q false pt b) \/ (forall b, ~ (selects q false (from pt) /\ opinion q false pt b))).
    { intros q Hq. destruct (policy_facts q Hq) as (y' & name' & ns' & d' & rules' & _ & _ & _ & _ & _ & _ & _ & _ & Wf & _).
      assert (DR : some_rule (p_egress q) pt \/ ~ some_rule (p_egress q) pt).
      { assert (WR : forall r, In r (p_egress q) -> a_ok std_dom std_rest (r_props r)) by (intros r Hr; refine (proj1 (proj1 Wf r _)); apply in_or_app; auto).
        pose proof (cube_laws std_dom std_rest reg reg std_peers [Ivl 0 255] K) as LW. unfold some_rule. clear - WR LW. induction (p_egress q) as [|r l IH]; [right; intros (r & [] & _)|].
        destruct (l_dec _ _ _ _ _ _ _ _ _ LW (r_props r) pt (WR r (or_introl eq_refl))) as [M|M]; [left; exists r; split; [left; auto|auto]|].
        destruct (IH (fun s Hs => WR s (or_intror Hs))) as [(s & Hs & Ms)|N]; [left; exists s; split; [right; auto|auto]|].
        right. intros (s & [<-|Hs] & Ms); [contradiction|]. apply N. exists s. auto. }
      destruct DR as [DR|DR]; [left; exists Allow; split; [auto|apply (Op q Hq); auto]|right; intros b [_ O]; apply (Op q Hq) in O as [_ O]; contradiction]. }
    destruct (silent_dec_iff _ pols Dc) as [(b & pre & q & post & Eq & [S O] & N)|Si].
    + assert (Hq : In q pols) by (rewrite Eq; apply in_or_app; right; left; auto). pose proof O as O'. apply (Op q Hq) in O' as [-> _].
      exists pre, q, post. split; auto. split; auto. split; auto. intros q' b Hq' Sq' Oq'. apply (N q' b Hq'). split; auto.
    + exfalso. apply (Si p Allow H). split; [apply Sl; auto|]. apply (Op p H). split; auto.
      apply (doc_fn y p name ns d rules H E Hy D pt h w Sp Wd Nh Fh). split; auto. apply (Sl p H).
Qed.

(** ** C61 *)
(** Pods, and the addresses they talk to: all connections of pods other than those of the ingress controller are allowed; the pods of the
    ingress controller may send what some Ingress document serves, and nothing else. *)
Theorem C61_gateway_layer : forall f, f_all f = true -> forall pt h w, space pt -> words_at code pt h w -> h <> [] -> all_fair h ->
  member (cl_peers cl) (from pt) -> ~ named_hep (from pt) ->
  (member (cl_peers cl) (to pt) /\ ~ named_hep (to pt) \/ is_addr (to pt) /\ ~ named_dns (from pt)) ->
  (pt @ all_allowed (layer_conns A LK8sGateway (cl_peers cl) pols f) <->
   (docs <> [] -> controller_at cl ks (from pt) -> pt 2 = 6%Z /\ some_serves h w (to pt) (pt 4))).
Proof using R Hc HC Hp HS CO SB SF B.
  intros f Hf pt h w Sp Wd Nh Fh Mf Nf Ht. destruct all_exact as [X1 X2].
  assert (H1 : pod_or_ip (cl_peers cl) (from pt)) by (left; exact Mf). assert (H2 : pod_or_ip (cl_peers cl) (to pt)) by (destruct Ht as [[Ht _]|[Ht _]]; [left|right]; exact Ht).
  change (layer_conns A LK8sGateway (cl_peers cl) pols f) with (layer_conns A LK8sCalico (cl_peers cl) pols f).
  refine (iff_trans (C24_k8s_calico_layer std_dom std_rest reg reg std_peers [Ivl 0 255] K (cl_peers cl) HC pols f X1 X2 Hf pt Sp H1 H2) _).
  assert (S1 : side_allows reg (cl_peers cl) pols true pt).
  { unfold side_allows. cbv zeta iota. destruct Ht as [[Ht Nt]|[Ht Nt]]; [right; right|left; auto]. split; auto. split; auto. left. apply not_selected_in. }
  assert (Na : ~ is_addr (from pt)) by (intros X; destruct (from pt); [destruct X|exact Mf]).
  split.
  - intros [_ S2] Ne Cx. unfold side_allows in S2. cbv zeta iota in S2. destruct S2 as [(X & _)|[(_ & X & _)|(_ & _ & [X|[X|X]])]]; [contradiction|contradiction| | |].
    + exfalso. apply X. apply selected_eg. auto.
    + apply (eg_verdict pt h w Sp Wd Nh Fh) in X. tauto.
    + apply (eg_verdict pt h w Sp Wd Nh Fh) in X as [X _]. discriminate.
  - intros H. split; [exact S1|]. unfold side_allows. cbv zeta iota. right. right. split; auto. split; auto.
    destruct docs as [|y0 ds] eqn:Ed; [left; rewrite <- Ed in *; intros X; apply selected_eg in X as [X _]; congruence|]. rewrite <- Ed in *.
    assert (Ne : docs <> []) by (rewrite Ed; discriminate).
    destruct (SF y0) as (p & Ip & _); [rewrite Ed; left; reflexivity|].
    destruct (policy_facts p Ip) as (y' & name' & ns' & d' & rules' & _ & _ & _ & _ & _ & _ & _ & Sel & _).
    destruct (SemDiff.pt_in_dec (from pt) (p_selected p)) as [Y|Y].
    + right. left. apply Sel in Y. apply (eg_verdict pt h w Sp Wd Nh Fh). split; auto.
    + left. intros X. apply selected_eg in X as [_ X]. apply Y. apply Sel. exact X.
Qed.
(** From addresses into the cluster: everything. *)
Theorem C61_from_addresses : forall f, f_all f = true -> forall pt, space pt -> is_addr (from pt) -> member (cl_peers cl) (to pt) -> ~ named_hep (to pt) -> ~ named_dns (to pt) ->
  pt @ all_allowed (layer_conns A LK8sGateway (cl_peers cl) pols f).
Proof using R Hc HC Hp HS CO SB B.
  intros f Hf pt Sp Af Mt Nt Nd. destruct all_exact as [X1 X2]. assert (H1 : pod_or_ip (cl_peers cl) (from pt)) by (right; exact Af). assert (H2 : pod_or_ip (cl_peers cl) (to pt)) by (left; exact Mt).
  change (layer_conns A LK8sGateway (cl_peers cl) pols f) with (layer_conns A LK8sCalico (cl_peers cl) pols f).
  refine (proj2 (C24_k8s_calico_layer std_dom std_rest reg reg std_peers [Ivl 0 255] K (cl_peers cl) HC pols f X1 X2 Hf pt Sp H1 H2) _).
  unfold side_allows. cbv zeta iota. split; [right; right; split; auto; split; auto; left; apply not_selected_in|left; auto].
Qed.
(** To host endpoints: nothing, whatever the documents say and whatever policies select the host endpoint. *)
Theorem C61_host_endpoints_cut_off : forall f, f_all f = true -> forall pt, space pt -> pod_or_ip (cl_peers cl) (from pt) -> member (cl_peers cl) (to pt) -> named_hep (to pt) ->
  ~ pt @ all_allowed (layer_conns A LK8sGateway (cl_peers cl) pols f).
Proof using R Hc HC Hp HS CO SB B.
  intros f Hf pt Sp H1 Mt Nt. destruct all_exact as [X1 X2]. assert (H2 : pod_or_ip (cl_peers cl) (to pt)) by (left; exact Mt).
  change (layer_conns A LK8sGateway (cl_peers cl) pols f) with (layer_conns A LK8sCalico (cl_peers cl) pols f). intros H.
  apply (proj1 (C24_k8s_calico_layer std_dom std_rest reg reg std_peers [Ivl 0 255] K (cl_peers cl) HC pols f X1 X2 Hf pt Sp H1 H2)) in H as [H _].
  unfold side_allows in H. cbv zeta iota in H. destruct H as [(X & _)|[(_ & _ & X)|(_ & X & _)]]; [|exact (in_verdict pt Allow X)|contradiction].
  destruct (to pt); [destruct X|exact Mt].
Qed.
(** ** With the other layers *)
Theorem C61_with_other_layers : forall ls, (forall ps, In (LK8sGateway, ps) ls <-> ps = pols) -> layers_exact std_dom std_rest reg ls ->
  forall pt h w, space pt -> words_at code pt h w -> h <> [] -> all_fair h -> docs <> [] -> controller_at cl ks (from pt) ->
  member (cl_peers cl) (from pt) -> ~ named_hep (from pt) -> pod_or_ip (cl_peers cl) (to pt) ->
  (member (cl_peers cl) (to pt) /\ ~ named_hep (to pt) \/ is_addr (to pt) /\ ~ named_dns (from pt)) ->
  (pt @ all_allowed (config_conns A (cl_peers cl) ls only_all_allowed) <->
   pt 2 = 6%Z /\ some_serves h w (to pt) (pt 4) /\
   (forall n ps, In (n, ps) ls -> n <> LK8sGateway -> pt @ all_allowed (layer_conns A n (cl_peers cl) ps only_all_allowed)) /\
   (has_host_endpoint (cl_peers cl) -> lget ls LK8sCalico = None -> pt @ all_allowed (layer_conns A LK8sCalico (cl_peers cl) [] only_all_allowed))).
Proof using R Hc HC Hp HS CO SB SF B.
  intros ls Hl LE pt h w Sp Wd Nh Fh Ne Cx Mf Nf Pt Ht. assert (H1 : pod_or_ip (cl_peers cl) (from pt)) by (left; exact Mf).
  refine (iff_trans (C26_all_allowed_is_the_intersection std_dom std_rest reg reg std_peers [Ivl 0 255] K (cl_peers cl) HC ls LE pt Sp H1 Pt) _).
  pose proof (C61_gateway_layer only_all_allowed eq_refl pt h w Sp Wd Nh Fh Mf Nf Ht) as G. split.
  - intros [X Y]. destruct (proj1 G (X _ _ (proj2 (Hl pols) eq_refl)) Ne Cx) as [T S]. split; [exact T|]. split; [exact S|]. split; [|exact Y]. intros n ps Hn _. exact (X n ps Hn).
  - intros (T & S & X & Y). split; [|exact Y]. intros n ps Hn.
    assert (D : n = LK8sGateway \/ n <> LK8sGateway) by (destruct n; auto; right; discriminate). destruct D as [->|D]; [|exact (X n ps Hn D)].
    apply Hl in Hn as ->. apply G. auto.
Qed.
End Layer.
Print Assumptions C61_gateway_layer.
Print Assumptions C61_from_addresses.
Print Assumptions C61_host_endpoints_cut_off.
Print Assumptions C61_with_other_layers.
