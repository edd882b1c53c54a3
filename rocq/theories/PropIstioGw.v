(** * C67, C68: the policies made of Istio Gateways and VirtualServices, and what their layer allows. *)
From Coq Require Import ZArith List Bool Arith Lia String Ascii.
From Verif Require Import IntervalModel IntervalFacts HyperModel HyperFacts HyperOps HyperDims HyperTop HyperInst PropHyperCube ConnModel ConnFacts TextModel PortProtoModel
                          PeerModel PeerFacts PeerSetFacts PolicyModel PolicyLaws PolicyFacts LayerFacts OrderFacts ConnAlg StdDims PropLayers YamlModel ClusterModel ConnDict
                          SelectorFacts CalicoSelectorSets PropSelectors K8sParserModel K8sParserFacts CalicoSelectorModel CalicoParserModel IstioValueModel PropIstioValues IstioRuleFacts IstioParserModel
                          ServiceModel PropServices IngressModel IngressWords PropIngressPaths GatewayFacts IngressFacts IstioGwModel IstioGwFacts.
Import ListNotations.
Local Open Scope string_scope.
Local Open Scope list_scope.
Local Open Scope nat_scope.
Local Opaque min_pod_index max_pod_index min_ipv6_index max_ipv6_index max_ipv4_index v4max v6min v6max.

(** ** The layer keeps the order of the policies *)
Definition append_all (c : @pcont (hc val)) (ps : list policy) : option (@pcont (hc val)) := fold_left (fun acc p => bind acc (fun c => append_policy c p)) ps (Some c).
Lemma gateway_last : forall (l : list policy) x, p_kind x = TGatewayPolicy -> p_ord x = None -> insort l x = Some (l ++ [x]).
Proof.
  intros l x K N. assert (F : forall y, policy_lt x y = false) by (intros y; unfold policy_lt, get_order; rewrite K; cbn [class_of]; rewrite ?N; reflexivity).
  destruct (insort_mono l x) as (l1 & l2 & E & -> & _ & B).
  { intros i j y z _ _ _ H. rewrite F in H. discriminate. }
  assert (l2 = []) by (destruct l2 as [|y l2]; auto; specialize (B y (or_introl eq_refl)); rewrite F in B; discriminate).
  subst l2. rewrite app_nil_r in E. subst l1. auto.
Qed.
Lemma append_gateway : forall (c : @pcont (hc val)) p c', p_kind p = TGatewayPolicy -> p_ord p = None -> append_policy c p = Some c' ->
  layer_list c' LIstioGateway = layer_list c LIstioGateway ++ [p] /\ policies c' = policies c ++ [((full_name p, TGatewayPolicy), p)].
Proof.
  intros c p c' K N E. unfold append_policy in E. rewrite K in E. cbn [ptype_eqb] in E. destruct (existsb _ _); [discriminate|].
  cbn [layer_of_type] in E. unfold layers_add in E. unfold layer_list.
  assert (H : (match lget (lays c) LIstioGateway with None => Some [p] | Some l => insort l p end) =
              Some (match lget (lays c) LIstioGateway with Some l => l | None => [] end ++ [p])).
  { destruct (lget (lays c) LIstioGateway); auto. apply gateway_last; auto. }
  rewrite H in E. injection E as <-. cbn [lays policies].
  assert (G : forall ls' : @layers (hc val), lget (match lget ls' LK8sCalico with Some [] => ldel ls' LK8sCalico | _ => ls' end) LIstioGateway = lget ls' LIstioGateway).
  { intros ls'. destruct (lget ls' LK8sCalico) as [[|]|]; auto. rewrite lget_ldel. auto. }
  rewrite G, lget_lset. auto.
Qed.
(** A configuration without gateway policies takes them exactly if their full names differ, and its layer is then their list. *)
Lemma C67_container_takes : forall ps c, (forall p, In p ps -> p_kind p = TGatewayPolicy /\ p_ord p = None) ->
  ((exists c', append_all c ps = Some c') <-> NoDup (map full_name ps) /\ forall p, In p ps -> ~ In (full_name p, TGatewayPolicy) (map fst (policies c))) /\
  forall c', append_all c ps = Some c' -> layer_list c' LIstioGateway = layer_list c LIstioGateway ++ ps.
Proof.
  unfold append_all. induction ps as [|p ps IH]; intros c H.
  - cbn [fold_left map]. split; [split; [intros _; split; [constructor|intros p []]|eauto]|]. intros c' E. injection E as <-. symmetry. apply app_nil_r.
  - cbn [fold_left bind map]. destruct (H p (or_introl eq_refl)) as [K N]. pose proof (append_accepts c p) as AA. rewrite K in AA.
    destruct (append_policy c p) as [c1|] eqn:E1.
    + destruct (append_gateway c p c1 K N E1) as [L1 P1]. destruct (IH c1 (fun q Hq => H q (or_intror Hq))) as [I1 I2].
      assert (NI : ~ In (full_name p, TGatewayPolicy) (map fst (policies c))) by (apply AA; eauto). split.
      * rewrite I1. rewrite P1, map_app. cbn [map fst]. split.
        -- intros [D F]. split.
           ++ constructor; auto. intros X. apply in_map_iff in X as (q & Eq & Hq). apply (F q Hq). apply in_or_app. right. left. rewrite Eq. reflexivity.
           ++ intros q [<-|Hq]; auto. intros X. apply (F q Hq). apply in_or_app. auto.
        -- intros [D F]. inversion D as [|? ? D1 D2]; subst. split; auto. intros q Hq X. apply in_app_or in X as [X|[X|[]]]; [exact (F q (or_intror Hq) X)|].
           apply D1. injection X as X. rewrite X. apply in_map. exact Hq.
      * intros c' E. rewrite (I2 c' E), L1, <- app_assoc. reflexivity.
    + assert (None_stays : fold_left (fun acc p => bind acc (fun c => append_policy c p)) ps None = @None (@pcont (hc val))) by (clear; induction ps; auto).
      rewrite None_stays. split; [|discriminate]. split; [intros [c' X]; discriminate|]. intros [_ F]. exfalso.
      assert (X : exists c', None = Some c') by (apply AA; split; [discriminate|apply (F p (or_introl eq_refl))]). destruct X as [c' X]. discriminate.
Qed.

Lemma both_sides : forall T I O X Y : Prop, T -> (I <-> X) -> (O <-> Y) -> (T /\ I /\ O <-> X /\ Y).
Proof. tauto. Qed.

Section Gw.
Context (reg : list peer) (R : reg_ok reg) (cl : cluster) (Hc : cluster_ok cl) (HC : container reg (cl_peers cl)).
Context (Hp : forall p nm n pr, assoc_s nm (cl_ports cl p) = Some (n, pr) -> (1 <= n <= 65535)%Z).
Context (gs : list gateway) (GN : NoDup (map gw_name gs)) (GG : forall g, In g gs -> gw_good cl g).
Context (vss : list vservice) (VG : forall vs, In vs vss -> vs_good cl vs).
Let K := std_alg reg R.
Let A := cube_ops std_dom std_all reg.
Let W := cube_laws std_dom std_rest reg reg std_peers [Ivl 0 255] K.
Notation space := (a_space std_dom).
Notation from := (a_src reg).
Notation to := (a_dst reg).

(** ** What is meant *)
(** A route of one of the virtual services that is bound to the gateway for some host. *)
Definition serves_at (eg : bool) (vs : vservice) (r : route) (g : gateway) : Prop :=
  In vs vss /\ In r (routes_of vs) /\ In g gs /\ gw_egress g = eg /\ exists x, bound vs r g x.
(** A route from the mesh to the egress gateway. *)
Definition entrance (vs : vservice) (r : route) (d : dest) : Prop := In vs vss /\ In r (routes_of vs) /\ into_gateway vs r d.
(** Both halves of the way out through an egress gateway are given. *)
Definition way_out : Prop := (exists vs r g, serves_at true vs r g) /\ exists vs r d, entrance vs r d.
(** The kinds of gateways that are taken into account. *)
Definition active (eg : bool) : Prop := eg = true -> way_out.
(** A gateway routes this request to this destination. *)
Definition leaves (pt : conn) : Prop := exists eg vs r g, active eg /\ serves_at eg vs r g /\ routed reg cl vs r g pt.
(** A pod of a gateway. *)
Definition gateway_pod (x : point) : Prop := exists eg vs r g, active eg /\ serves_at eg vs r g /\ pt_in x (gw_peers g).
(** A pod that is not of the egress gateway, on its way to an external destination of the gateway. *)
Definition bypasses (pt : conn) : Prop := way_out /\ exists vs r g d, serves_at true vs r g /\ In d (rt_dests r) /\ pt_in (from pt) (all_group cl) /\ ~ pt_in (from pt) (gw_peers g) /\ pt_in (to pt) (ds_pods d).
(** A request that a route sends from the mesh to the egress gateway. *)
Definition comes_in (pt : conn) : Prop := way_out /\ exists vs r d, entrance vs r d /\ enters reg cl r d pt.
Definition entrance_pod (x : point) : Prop := way_out /\ exists vs r d, entrance vs r d /\ pt_in x (ds_pods d).

(** What the policies of a list say. *)
Definition egress_allowed (pols : list policy) (pt : conn) : Prop := exists P, In P pols /\ p_action P = Allow /\ p_affects_eg P = true /\ some_rule (p_egress P) pt.
Definition egress_denied (pols : list policy) (pt : conn) : Prop := exists P, In P pols /\ p_action P = Deny /\ p_affects_eg P = true /\ some_rule (p_egress P) pt.
Definition ingress_allowed (pols : list policy) (pt : conn) : Prop := exists P, In P pols /\ p_action P = Allow /\ p_affects_in P = true /\ some_rule (p_ingress P) pt.
Definition ingress_denied (pols : list policy) (pt : conn) : Prop := exists P, In P pols /\ p_action P = Deny /\ p_affects_in P = true /\ some_rule (p_ingress P) pt.
Definition restricts (pols : list policy) (ing : bool) (x : point) : Prop :=
  exists P, In P pols /\ p_action P = Allow /\ (if ing then p_affects_in P else p_affects_eg P) = true /\ pt_in x (p_selected P).
Definition allow_first (pols : list policy) : Prop := exists a b, pols = a ++ b /\ (forall P, In P a -> p_action P = Allow) /\ forall P, In P b -> p_action P = Deny.

Lemma plain_pt_in : forall s q k i, plain s -> q = Named k i -> (pt_in (PN k i) s <-> In q s).
Proof using. intros s q k i Ps ->. cbn [pt_in]. tauto. Qed.
Lemma cluster_member : forall s x, of_cluster cl s -> pt_in x s -> member (cl_peers cl) x.
Proof using. intros s x [P I] H. apply (plain_pt _ _ P) in H as (q & Hq & k & i & -> & ->). exact (I _ Hq). Qed.
Lemma made_wf : forall P, made cl P -> policy_wf std_dom std_rest reg P.
Proof using HC.
  intros P (_ & _ & Ri & Re & S). apply policy_wf_regular; [|exact (cluster_pok reg cl HC _ S)].
  intros q Hq. apply in_app_or in Hq. assert (X : a_ok std_dom std_rest (r_props q) /\ regular_conns (r_props q)) by (destruct Hq; [apply Ri|apply Re]; auto).
  destruct X as [X1 X2]. split; [exact X1|destruct X2; auto].
Qed.
Lemma allow_confined : forall vs r g P, allow_for reg cl vs r g P -> confined std_dom reg (cl_peers cl) P.
Proof using.
  intros vs r g P (M & _ & _ & _ & _ & Ei & Es & Se). unfold confined. rewrite Ei. split; [intros q pt _ []|]. split.
  - intros q pt Sp Hq Hm. assert (X : some_rule (p_egress P) pt) by (exists q; auto). apply (Se pt Sp) in X. rewrite Es. apply X.
  - intros x Hx. apply (cluster_member (p_selected P)); auto. apply M.
Qed.
Lemma deny_confined : forall vs r g P, deny_for reg cl vs r g P -> confined std_dom reg (cl_peers cl) P.
Proof using.
  intros vs r g P (M & _ & _ & _ & _ & Ei & Es & Se). unfold confined. rewrite Ei. split; [intros q pt _ []|]. split.
  - intros q pt Sp Hq Hm. assert (X : some_rule (p_egress P) pt) by (exists q; auto). apply (Se pt Sp) in X. apply X.
  - intros x Hx. apply (cluster_member (p_selected P)); auto. apply M.
Qed.
Lemma enter_confined : forall vs r d P, enter_for reg cl vs r d P -> confined std_dom reg (cl_peers cl) P.
Proof using.
  intros vs r d P (M & _ & _ & _ & _ & Ee & Es & Si). unfold confined. rewrite Ee. split; [|split; [intros q pt _ []|]].
  - intros q pt Sp Hq Hm. assert (X : some_rule (p_ingress P) pt) by (exists q; auto). apply (Si pt Sp) in X. rewrite Es. destruct X as (_ & _ & _ & X & _). exact X.
  - intros x Hx. apply (cluster_member (p_selected P)); auto. apply M.
Qed.
Lemma dummy_made : made cl (dummy_policy) /\ confined std_dom reg (cl_peers cl) dummy_policy.
Proof using.
  assert (N : forall x, ~ pt_in x []) by (intros [k i|y]; cbn [pt_in]; [tauto|intros (l & [] & _)]).
  split; [|split; [intros q pt _ []|split; [intros q pt _ []|intros x Hx; destruct (N x Hx)]]].
  split; [reflexivity|]. split; [reflexivity|]. split; [intros q []|]. split; [intros q []|]. split; intros q [].
Qed.

(** ** C67 *)
Lemma flows_kinds : forall f, flows_are reg cl gs (fun vs r => In vs vss /\ In r (routes_of vs)) f ->
  (fl_egress f <> [] <-> exists vs r g, serves_at true vs r g) /\ (fl_mesh f <> [] <-> exists vs r d, entrance vs r d).
Proof using.
  intros f (_ & (E1 & E2) & _ & (M1 & M2)). split; split.
  - intros N. destruct (fl_egress f) as [|P l]; [congruence|]. destruct (E1 P (or_introl eq_refl)) as ([[vs r] g] & ((H1 & H2) & (H3 & H4 & H5)) & _). cbn [fst snd] in *. exists vs, r, g. repeat (split; [assumption|]). exact H5.
  - intros (vs & r & g & H1 & H2 & H3 & H4 & H5). destruct (E2 (vs, r, g)) as (P & HP & _); [cbn [fst snd]; repeat split; auto|]. intros X. rewrite X in HP. destruct HP.
  - intros N. destruct (fl_mesh f) as [|P l]; [congruence|]. destruct (M1 P (or_introl eq_refl)) as ([[vs r] d] & ((H1 & H2) & H3) & _). cbn [fst snd] in *. exists vs, r, d. repeat (split; [assumption|]). exact H3.
  - intros (vs & r & d & H1 & H2 & H3). destruct (M2 (vs, r, d)) as (P & HP & _); [cbn [fst snd]; repeat split; auto; apply H3|]. intros X. rewrite X in HP. destruct HP.
Qed.

Theorem C67_gateway_policies : forall pols, gs <> [] -> vss <> [] -> gateway_policies std_dom reg cl (Some gs) (Some vss) = Some pols ->
  (forall P, In P pols -> p_kind P = TGatewayPolicy /\ p_ord P = None /\ policy_wf std_dom std_rest reg P /\ confined std_dom reg (cl_peers cl) P) /\ allow_first pols /\
  (forall x, restricts pols false x <-> gateway_pod x) /\ (forall x, restricts pols true x <-> entrance_pod x) /\
  forall pt, space pt ->
    (egress_allowed pols pt <-> leaves pt) /\ (egress_denied pols pt <-> bypasses pt) /\ (ingress_allowed pols pt <-> comes_in pt) /\ ~ ingress_denied pols pt.
Proof using R Hc HC Hp GN GG VG.
  intros pols Ng Nv E. unfold gateway_policies in E. destruct gs as [|g0 gt] eqn:Egs; [congruence|]. destruct vss as [|v0 vt] eqn:Evs; [congruence|]. rewrite <- Egs, <- Evs in *. clear g0 gt v0 vt Egs Evs Ng Nv.
  destruct (all_flows std_dom reg cl gs vss) as [f|] eqn:Ef; [|discriminate]. cbn [option_map] in E. injection E as <-.
  pose proof (all_flows_spec reg R cl Hc HC Hp gs GN GG vss f VG Ef) as F. destruct (flows_kinds f F) as [KE KM]. destruct F as ((I1 & I2) & (E1 & E2) & (D1 & D2) & (M1 & M2)).
  set (part := match fl_mesh f, fl_egress f with _ :: _, _ :: _ => fl_mesh f ++ fl_egress f ++ fl_deny f | _, _ => [] end).
  assert (Part : (way_out -> part = fl_mesh f ++ fl_egress f ++ fl_deny f) /\ (part <> [] -> way_out)).
  { unfold part, way_out. rewrite <- KE, <- KM. destruct (fl_mesh f), (fl_egress f); split; auto; try tauto; try (intros [H1 H2]; congruence). intros _. split; discriminate. }
  set (l := fl_ingress f ++ part). assert (Eq : flow_policies f = match l with [] => [dummy_policy] | _ => l end) by (unfold flow_policies; fold part; fold l; destruct l; reflexivity).
  (* the members of the list without the dummy *)
  assert (In_l : forall P, In P l <-> In P (fl_ingress f) \/ way_out /\ (In P (fl_mesh f) \/ In P (fl_egress f) \/ In P (fl_deny f))).
  { intros P. unfold l. rewrite in_app_iff. destruct Part as [Pa Pb]. split.
    - intros [H|H]; auto. right. assert (Wo : way_out) by (apply Pb; intros X; rewrite X in H; destruct H). split; auto. rewrite (Pa Wo) in H. rewrite !in_app_iff in H. tauto.
    - intros [H|[Wo H]]; auto. right. rewrite (Pa Wo), !in_app_iff. tauto. }
  assert (Dum : forall (Q : policy -> Prop), ~ Q dummy_policy -> ((exists P, In P (flow_policies f) /\ Q P) <-> exists P, In P l /\ Q P)).
  { intros Q NQ. rewrite Eq. destruct l as [|P0 l0]; [|reflexivity]. split; [intros (P & [<-|[]] & HQ); tauto|intros (P & [] & _)]. }
  assert (NoPt : forall x, ~ pt_in x []) by (intros [k i|y]; cbn [pt_in]; [tauto|intros (z & [] & _)]).
  assert (DecI : forall P, In P (fl_ingress f) -> exists vs r g, serves_at false vs r g /\ allow_for reg cl vs r g P).
  { intros P HP. destruct (I1 P HP) as ([[vs r] g] & ((H1 & H2) & (H3 & H4 & H5)) & HF). exists vs, r, g. split; [repeat (split; [assumption|]); exact H5|exact HF]. }
  assert (DecE : forall P, In P (fl_egress f) -> exists vs r g, serves_at true vs r g /\ allow_for reg cl vs r g P).
  { intros P HP. destruct (E1 P HP) as ([[vs r] g] & ((H1 & H2) & (H3 & H4 & H5)) & HF). exists vs, r, g. split; [repeat (split; [assumption|]); exact H5|exact HF]. }
  assert (DecD : forall P, In P (fl_deny f) -> exists vs r g, serves_at true vs r g /\ deny_for reg cl vs r g P).
  { intros P HP. destruct (D1 P HP) as ([[vs r] g] & ((H1 & H2) & (H3 & H4 & H5)) & HF). exists vs, r, g. split; [repeat (split; [assumption|]); exact H5|exact HF]. }
  assert (DecM : forall P, In P (fl_mesh f) -> exists vs r d, entrance vs r d /\ enter_for reg cl vs r d P).
  { intros P HP. destruct (M1 P HP) as ([[vs r] d] & ((H1 & H2) & H3) & HF). exists vs, r, d. split; [repeat (split; [assumption|]); exact H3|exact HF]. }
  assert (GetI : forall eg vs r g, active eg -> serves_at eg vs r g -> exists P, In P l /\ allow_for reg cl vs r g P).
  { intros eg vs r g Ac (H1 & H2 & H3 & H4 & H5). destruct eg.
    - destruct (E2 (vs, r, g)) as (P & HP & HF); [cbn [fst snd]; repeat split; auto|]. exists P. split; [apply In_l; right; split; [apply Ac; reflexivity|auto]|exact HF].
    - destruct (I2 (vs, r, g)) as (P & HP & HF); [cbn [fst snd]; repeat split; auto|]. exists P. split; [apply In_l; auto|exact HF]. }
  assert (GetD : forall vs r g, way_out -> serves_at true vs r g -> exists P, In P l /\ deny_for reg cl vs r g P).
  { intros vs r g Wo (H1 & H2 & H3 & H4 & H5). destruct (D2 (vs, r, g)) as (P & HP & HF); [cbn [fst snd]; repeat split; auto|]. exists P. split; [apply In_l; right; split; [exact Wo|auto]|exact HF]. }
  assert (GetM : forall vs r d, way_out -> entrance vs r d -> exists P, In P l /\ enter_for reg cl vs r d P).
  { intros vs r d Wo (H1 & H2 & H3). destruct (M2 (vs, r, d)) as (P & HP & HF); [cbn [fst snd]; repeat split; auto; apply H3|]. exists P. split; [apply In_l; right; split; [exact Wo|auto]|exact HF]. }
  (* every policy of the list is one of three kinds *)
  assert (All : forall P, In P l -> (exists eg vs r g, active eg /\ serves_at eg vs r g /\ allow_for reg cl vs r g P) \/
      (way_out /\ exists vs r g, serves_at true vs r g /\ deny_for reg cl vs r g P) \/ (way_out /\ exists vs r d, entrance vs r d /\ enter_for reg cl vs r d P)).
  { intros P HP. apply In_l in HP as [HP|[Wo [HP|[HP|HP]]]].
    - left. destruct (DecI P HP) as (vs & r & g & H1 & H2). exists false, vs, r, g. split; [intros X; discriminate|auto].
    - right. right. split; auto.
    - left. destruct (DecE P HP) as (vs & r & g & H1 & H2). exists true, vs, r, g. split; [intros _; exact Wo|auto].
    - right. left. split; auto. }
  destruct dummy_made as [Dm Dc].
  split; [|split; [|split; [|split]]].
  - (* kinds *)
    assert (X : forall P, In P l -> made cl P /\ confined std_dom reg (cl_peers cl) P).
    { intros P HP. destruct (All P HP) as [(eg & vs & r & g & _ & _ & HF)|[(_ & vs & r & g & _ & HF)|(_ & vs & r & d & _ & HF)]].
      - split; [apply HF|exact (allow_confined _ _ _ _ HF)].
      - split; [apply HF|exact (deny_confined _ _ _ _ HF)].
      - split; [apply HF|exact (enter_confined _ _ _ _ HF)]. }
    intros P HP. assert (Y : made cl P /\ confined std_dom reg (cl_peers cl) P).
    { rewrite Eq in HP. destruct l as [|P0 l0]; [destruct HP as [<-|[]]; auto|apply X; exact HP]. }
    destruct Y as [Y1 Y2]. split; [apply Y1|]. split; [apply Y1|]. split; [exact (made_wf P Y1)|exact Y2].
  - (* Allow before Deny *)
    rewrite Eq. destruct l as [|P0 l0] eqn:El; [exists [dummy_policy], []; split; [reflexivity|]; split; [intros P [<-|[]]; reflexivity|intros P []]|]. rewrite <- El in *. clear P0 l0 El.
    destruct part as [|P1 p0] eqn:Ep.
    + exists l, []. rewrite app_nil_r. split; auto. split; [|intros P []]. intros P HP. unfold l in HP. rewrite app_nil_r in HP. destruct (DecI P HP) as (vs & r & g & _ & HF). apply HF.
    + assert (Wo : way_out) by (apply Part; discriminate). exists (fl_ingress f ++ fl_mesh f ++ fl_egress f), (fl_deny f). split.
      * unfold l. rewrite (proj1 Part Wo), !app_assoc. reflexivity.
      * split.
        -- intros P HP. rewrite !in_app_iff in HP. destruct HP as [HP|[HP|HP]]; [destruct (DecI P HP) as (? & ? & ? & _ & HF)|destruct (DecM P HP) as (? & ? & ? & _ & HF)|destruct (DecE P HP) as (? & ? & ? & _ & HF)]; apply HF.
        -- intros P HP. destruct (DecD P HP) as (? & ? & ? & _ & HF). apply HF.
  - intros x. unfold restricts. rewrite Dum by (cbn; intros (_ & H & _); discriminate). split.
    + intros (P & HP & Ea & Af & Hx). destruct (All P HP) as [(eg & vs & r & g & Ac & Hs & HF)|[(_ & vs & r & g & _ & HF)|(_ & vs & r & d & _ & HF)]].
      * destruct HF as (_ & _ & _ & _ & _ & _ & Es & _). rewrite Es in Hx. exists eg, vs, r, g. auto.
      * destruct HF as (_ & Ea' & _). congruence.
      * destruct HF as (_ & _ & _ & _ & Af' & _). congruence.
    + intros (eg & vs & r & g & Ac & Hs & Hx). destruct (GetI eg vs r g Ac Hs) as (P & HP & HF). exists P. destruct HF as (_ & Ea & _ & _ & Af & _ & Es & _). rewrite Es. auto.
  - intros x. unfold restricts. rewrite Dum by (cbn; intros (_ & H & _); discriminate). split.
    + intros (P & HP & Ea & Af & Hx). destruct (All P HP) as [(eg & vs & r & g & Ac & Hs & HF)|[(_ & vs & r & g & _ & HF)|(Wo & vs & r & d & Hd & HF)]].
      * destruct HF as (_ & _ & _ & Af' & _). congruence.
      * destruct HF as (_ & _ & _ & Af' & _). congruence.
      * destruct HF as (_ & _ & _ & _ & _ & _ & Es & _). rewrite Es in Hx. split; auto. exists vs, r, d. auto.
    + intros (Wo & vs & r & d & Hd & Hx). destruct (GetM vs r d Wo Hd) as (P & HP & HF). exists P. destruct HF as (_ & Ea & _ & Af & _ & _ & Es & _). rewrite Es. auto.
  - intros pt Sp. split; [|split; [|split]].
    + unfold egress_allowed. rewrite Dum by (cbn; intros (_ & H & _); discriminate). split.
      * intros (P & HP & Ea & Af & Hx). destruct (All P HP) as [(eg & vs & r & g & Ac & Hs & HF)|[(_ & vs & r & g & _ & HF)|(_ & vs & r & d & _ & HF)]].
        -- destruct HF as (_ & _ & _ & _ & _ & _ & _ & Se). apply (Se pt Sp) in Hx. exists eg, vs, r, g. auto.
        -- destruct HF as (_ & Ea' & _). congruence.
        -- destruct HF as (_ & _ & _ & _ & Af' & _). congruence.
      * intros (eg & vs & r & g & Ac & Hs & Hx). destruct (GetI eg vs r g Ac Hs) as (P & HP & HF). exists P. destruct HF as (_ & Ea & _ & _ & Af & _ & _ & Se). rewrite (Se pt Sp). auto.
    + unfold egress_denied. rewrite Dum by (cbn; intros (H & _); discriminate). split.
      * intros (P & HP & Ea & Af & Hx). destruct (All P HP) as [(eg & vs & r & g & Ac & Hs & HF)|[(Wo & vs & r & g & Hs & HF)|(_ & vs & r & d & _ & HF)]].
        -- destruct HF as (_ & Ea' & _). congruence.
        -- destruct HF as (Mp & _ & _ & _ & _ & _ & Es & Se). apply (Se pt Sp) in Hx as (H1 & d & Hd & H2). split; auto. exists vs, r, g, d. split; auto. split; auto.
           destruct Mp as (_ & _ & _ & _ & [Pl _]). apply (plain_pt _ _ Pl) in H1 as (q & Hq & k & i & -> & Ex). apply Es in Hq as [Q1 Q2]. rewrite Ex. cbn [pt_in]. auto.
        -- destruct HF as (_ & Ea' & _). congruence.
      * intros (Wo & vs & r & g & d & Hs & Hd & H1 & H2 & H3). destruct (GetD vs r g Wo Hs) as (P & HP & HF). exists P. destruct HF as (Mp & Ea & _ & _ & Af & _ & Es & Se).
        split; auto. split; auto. split; auto. apply (Se pt Sp). split; [|exists d; auto].
        destruct (group_cluster cl Hc) as [Pl _]. apply (plain_pt _ _ Pl) in H1 as (q & Hq & k & i & -> & Ex). rewrite Ex in H2 |- *. cbn [pt_in] in *. apply Es. auto.
    + unfold ingress_allowed. rewrite Dum by (cbn; intros (_ & H & _); discriminate). split.
      * intros (P & HP & Ea & Af & Hx). destruct (All P HP) as [(eg & vs & r & g & Ac & Hs & HF)|[(_ & vs & r & g & _ & HF)|(Wo & vs & r & d & Hd & HF)]].
        -- destruct HF as (_ & _ & _ & Af' & _). congruence.
        -- destruct HF as (_ & _ & _ & Af' & _). congruence.
        -- destruct HF as (_ & _ & _ & _ & _ & _ & _ & Si). apply (Si pt Sp) in Hx. split; auto. exists vs, r, d. auto.
      * intros (Wo & vs & r & d & Hd & Hx). destruct (GetM vs r d Wo Hd) as (P & HP & HF). exists P. destruct HF as (_ & Ea & _ & Af & _ & _ & _ & Si). rewrite (Si pt Sp). auto.
    + unfold ingress_denied. rewrite Dum by (cbn; intros (H & _); discriminate).
      intros (P & HP & Ea & Af & Hx). destruct (All P HP) as [(eg & vs & r & g & Ac & Hs & HF)|[(_ & vs & r & g & _ & HF)|(_ & vs & r & d & _ & HF)]].
      * destruct HF as (_ & Ea' & _). congruence.
      * destruct HF as (_ & _ & _ & Af' & _). congruence.
      * destruct HF as (_ & Ea' & _). congruence.
Qed.
(** ** C68: the layer *)
Context (pols : list policy) (Ng : gs <> []) (Nv : vss <> []) (EP : gateway_policies std_dom reg cl (Some gs) (Some vss) = Some pols).
Let L := cube_laws std_dom std_rest reg reg std_peers [Ivl 0 255] K.
Definition acting (ing : bool) (P : policy) (a : action) (pt : conn) : Prop :=
  p_action P = a /\ (if ing then p_affects_in P else p_affects_eg P) = true /\ some_rule (if ing then p_ingress P else p_egress P) pt.
Lemma gw_exact : exact_policies std_dom std_rest reg pols.
Proof using R Hc HC Hp GN GG VG Ng Nv EP.
  destruct (C67_gateway_policies pols Ng Nv EP) as (KP & _). split; [intros P HP; apply KP; exact HP|].
  left. intros P HP X. exfalso. destruct (KP P HP) as (Ek & _). unfold is_calico in X. rewrite Ek in X. destruct X as [X|[X|X]]; discriminate.
Qed.
Lemma gw_action : forall P, In P pols -> p_action P = Allow \/ p_action P = Deny.
Proof using R Hc HC Hp GN GG VG Ng Nv EP.
  intros P HP. destruct (C67_gateway_policies pols Ng Nv EP) as (_ & (a & b & -> & Ha & Hb) & _). apply in_app_or in HP as [HP|HP]; auto.
Qed.
Lemma gw_decides : forall ing P pt a, In P pols -> space pt -> (decides a_mem ing pt P a <-> acting ing P a pt).
Proof using R Hc HC Hp GN GG VG Ng Nv EP.
  intros ing P pt a HP Sp. destruct (C67_gateway_policies pols Ng Nv EP) as (KP & _). destruct (KP P HP) as (Ek & _ & _ & Cf). rewrite decides_bridge.
  unfold acting, captures_some, policy_captured, opinion, rules_of. rewrite Ek. cbn [class_of]. split.
  - intros [Cs (E1 & _ & E2)]. split; [auto|]. split; [|exact E2]. destruct ing; [destruct (p_affects_in P)|destruct (p_affects_eg P)]; auto; congruence.
  - intros (Ea & Af & Sr). split; [|split; [auto|split; [rewrite <- Ea; apply gw_action; exact HP|exact Sr]]].
    assert (X : pt_in (if ing then to pt else from pt) (p_selected P)).
    { destruct Cf as (C1 & C2 & _). destruct Sr as (q & Hq & Mq). destruct ing; [exact (C1 q pt Sp Hq Mq)|exact (C2 q pt Sp Hq Mq)]. }
    intros N. assert (Es : p_selected P = []) by (revert N; destruct ing; rewrite Af; auto). rewrite Es in X. destruct ing; [destruct (to pt)|destruct (from pt)]; cbn [pt_in] in X; try (destruct X as (z & [] & _)); destruct X.
Qed.
Lemma gw_verdicts : forall ing pt, space pt ->
  (first_says (decides a_mem ing pt) pols Allow <-> exists P, In P pols /\ acting ing P Allow pt) /\
  (first_says (decides a_mem ing pt) pols Deny <-> (~ exists P, In P pols /\ acting ing P Allow pt) /\ exists P, In P pols /\ acting ing P Deny pt).
Proof using R Hc HC Hp GN GG VG Ng Nv EP.
  intros ing pt Sp. pose proof gw_exact as X. pose proof (fun P a HP => gw_decides ing P pt a HP Sp) as D.
  assert (Dec : forall p, In p pols -> (exists b, decides a_mem ing pt p b) \/ (forall b, ~ decides a_mem ing pt p b)).
  { intros p HP. apply (decides_dec _ _ _ _ _ _ _ _ _ L). apply (exact_layer std_dom std_rest reg reg std_peers [Ivl 0 255] K any_policy pols ing X); auto. }
  assert (Only : forall b, first_says (decides a_mem ing pt) pols b -> b = Allow \/ b = Deny).
  { intros b (pre & p & post & E & Dp & _). assert (HP : In p pols) by (rewrite E; apply in_or_app; right; left; reflexivity). apply (D p b HP) in Dp as [<- _]. apply gw_action. exact HP. }
  assert (Later : forall p, In p pols -> acting ing p Allow pt -> first_says (decides a_mem ing pt) pols Allow).
  { intros p HP Ap. assert (Dp : decides a_mem ing pt p Allow) by (apply (D p Allow HP); exact Ap).
    destruct (first_of_some (decides a_mem ing pt) pols Dec p Allow HP Dp) as [b Fb]. destruct (Only b Fb) as [->| ->]; auto. exfalso.
    destruct Fb as (pre & q & post & E & Dq & N). destruct (C67_gateway_policies pols Ng Nv EP) as (_ & (al & dl & Ea & Ha & Hd) & _).
    assert (HQ : In q pols) by (rewrite E; apply in_or_app; right; left; reflexivity). apply (D q Deny HQ) in Dq as [Aq _].
    (* the Deny policy stands after all Allow policies *)
    assert (In p pre); [|exact (N p Allow H Dp)].
    assert (Hal : In p al). { rewrite Ea in HP. apply in_app_or in HP as [H|H]; auto. apply Hd in H. destruct Ap as [Ap _]. congruence. }
    assert (Nq : ~ In q al) by (intros H; apply Ha in H; congruence).
    rewrite E in Ea. clear - Ea Hal Nq. revert pre Ea. induction al as [|x al IH]; intros pre Ea; [destruct Hal|]. destruct pre as [|z pre].
    - cbn [app] in Ea. injection Ea as E1 E2. exfalso. apply Nq. left. auto.
    - cbn [app] in Ea. injection Ea as -> E2. destruct Hal as [->|Hal]; [left; auto|right; apply IH; auto]. intros H. apply Nq. right. auto. }
  assert (From : forall b, first_says (decides a_mem ing pt) pols b -> exists P, In P pols /\ acting ing P b pt).
  { intros b (pre & p & post & E & Dp & _). assert (HP : In p pols) by (rewrite E; apply in_or_app; right; left; reflexivity). exists p. split; auto. apply D; auto. }
  split; split.
  - apply From.
  - intros (p & HP & Ap). exact (Later p HP Ap).
  - intros F. split; [|apply From; exact F]. intros (p & HP & Ap). pose proof (first_fn _ (decides_fn a_mem ing pt) _ _ _ F (Later p HP Ap)). discriminate.
  - intros [NA (p & HP & Ap)]. assert (Dp : decides a_mem ing pt p Deny) by (apply (D p Deny HP); exact Ap).
    destruct (first_of_some (decides a_mem ing pt) pols Dec p Deny HP Dp) as [b Fb]. destruct (Only b Fb) as [->| ->]; auto. exfalso. apply NA. apply From. exact Fb.
Qed.
Lemma gw_captured : forall ing x, captured_by istio_capf pols ing x <-> restricts pols ing x.
Proof using R Hc HC Hp GN GG VG Ng Nv EP.
  intros ing x. destruct (C67_gateway_policies pols Ng Nv EP) as (KP & _). unfold captured_by, restricts. split.
  - intros (P & HP & Cf & S). exists P. split; auto. apply captured_bridge in S as [S1 S2]. destruct (KP P HP) as (Ek & _). unfold istio_capf in Cf. rewrite Ek in Cf, S2.
    split; [destruct (p_action P); try discriminate; reflexivity|]. split; [destruct ing; exact S2|exact S1].
  - intros (P & HP & Ea & Af & S). exists P. split; auto. destruct (KP P HP) as (Ek & _). unfold istio_capf. rewrite Ek, Ea. split; auto. apply captured_bridge. unfold selects. rewrite Ek. destruct ing; auto.
Qed.
Lemma comes_from_pod : forall pt, comes_in pt -> exists k i, from pt = PN k i.
Proof using Hc.
  intros pt (_ & vs & r & d & _ & E). destruct E as (F & _). destruct (group_cluster cl Hc) as [Pl _]. apply (plain_pt _ _ Pl) in F as (q & _ & k & i & _ & ->). eauto.
Qed.

(** The traffic of pods. *)
Theorem C68_from_pods : forall f, f_all f = true -> forall pt, space pt -> a_tcp pt = true -> member (cl_peers cl) (from pt) -> ~ named_dns (from pt) ->
  is_addr (to pt) \/ member (cl_peers cl) (to pt) ->
  (pt @ all_allowed (layer_conns A LIstioGateway (cl_peers cl) pols f) <->
   (comes_in pt \/ is_addr (to pt) \/ ~ entrance_pod (to pt) /\ (named_dns (to pt) -> exists x, member (cl_peers cl) x /\ ~ named_dns x /\ ~ entrance_pod x)) /\
   (leaves pt \/ ~ gateway_pod (from pt) /\ ~ bypasses pt)).
Proof using R Hc HC Hp GN GG VG Ng Nv EP.
  intros f Hf pt Sp T Mf Nf Ht. destruct (exact_layer_ok std_dom std_rest reg reg std_peers [Ivl 0 255] K LIstioGateway pols gw_exact) as [O1 O2].
  destruct (layer_conns_spec A _ _ _ _ _ _ _ _ L (cl_peers cl) HC LIstioGateway pols f O1 O2 (fun _ => Hf)) as (_ & _ & _ & _ & M).
  destruct (M pt Sp) as (_ & _ & Ma). refine (iff_trans Ma _). clear Ma M.
  destruct (C67_gateway_policies pols Ng Nv EP) as (_ & _ & RE & RI & Q). destruct (Q pt Sp) as (Q1 & Q2 & Q3 & Q4).
  destruct (gw_verdicts true pt Sp) as [VI1 VI2]. destruct (gw_verdicts false pt Sp) as [VE1 VE2].
  unfold layer_allows, layer_in, layer_out, dir_explicit, dir_default, istio_default, anywhere_no_dns, pod. cbv beta iota.
  rewrite T, VI1, VI2, VE1, VE2, !gw_captured, RE, RI.
  assert (X1 : (exists P, In P pols /\ acting true P Allow pt) <-> comes_in pt) by exact Q3.
  assert (X2 : ~ exists P, In P pols /\ acting true P Deny pt) by exact Q4.
  assert (X3 : (exists P, In P pols /\ acting false P Allow pt) <-> leaves pt) by exact Q1.
  assert (X4 : (exists P, In P pols /\ acting false P Deny pt) <-> bypasses pt) by exact Q2.
  assert (X5 : (exists x, (member (cl_peers cl) x /\ ~ named_dns x) /\ ~ captured_by istio_capf pols true x) <-> exists x, member (cl_peers cl) x /\ ~ named_dns x /\ ~ entrance_pod x).
  { split; intros (x & H); exists x; rewrite gw_captured, RI in *; tauto. }
  rewrite X1, X3, X4, X5. assert (Na : ~ is_addr (from pt)) by (intros X; destruct (from pt); [destruct X|exact Mf]).
  assert (Nd : named_dns (to pt) \/ ~ named_dns (to pt)) by (destruct (to pt) as [k ?|]; cbn [named_dns]; [lia|tauto]).
  assert (Nd2 : is_addr (to pt) -> ~ named_dns (to pt)) by (destruct (to pt); cbn; tauto).
  assert (Na2 : is_addr (to pt) \/ ~ is_addr (to pt)) by (destruct (to pt); cbn; tauto).
  assert (X6 : true = false <-> False) by (split; [discriminate|tauto]). rewrite X6.
  assert (X7 : f_all f = true <-> True) by tauto. assert (X8 : true = true <-> True) by tauto. rewrite X7, X8.
  assert (DL : leaves pt \/ ~ leaves pt).
  { rewrite <- X3, <- VE1. destruct (silent_dec_iff (decides a_mem false pt) pols) as [[b Fb]|Si].
    - intros p HP. apply (decides_dec _ _ _ _ _ _ _ _ _ L). apply (exact_layer std_dom std_rest reg reg std_peers [Ivl 0 255] K any_policy pols false gw_exact); auto.
    - destruct b; auto; right; intros F; pose proof (first_fn _ (decides_fn a_mem false pt) _ _ _ F Fb); discriminate.
    - right. intros (pre & p & post & E & Dp & _). apply (Si p Allow); [rewrite E; apply in_or_app; right; left; reflexivity|exact Dp]. }
  assert (EA : is_addr (to pt) -> ~ entrance_pod (to pt) \/ entrance_pod (to pt)) by (intros H; left; intros (_ & vs & r & d & (V1 & V2 & V3) & V4); destruct V3 as (_ & _ & V3 & _);
      pose proof (cluster_member _ _ (proj1 (proj1 (proj2 (proj2 (VG vs V1)) r V2) d V3)) V4) as X; destruct (to pt); [destruct H|exact X]).
  clear - Mf Nf Ht Na Nd Nd2 Na2 X2 DL EA.
  generalize dependent (exists P, In P pols /\ acting true P Deny pt). intros. 
  generalize dependent (exists x, member (cl_peers cl) x /\ ~ named_dns x /\ ~ entrance_pod x). intros.
  generalize dependent (comes_in pt). intros. generalize dependent (leaves pt). intros. generalize dependent (bypasses pt). intros. generalize dependent (gateway_pod (from pt)). intros.
  generalize dependent (entrance_pod (to pt)). intros.
  generalize dependent (member (cl_peers cl) (to pt)). generalize dependent (member (cl_peers cl) (from pt)).
  generalize dependent (is_addr (to pt)). generalize dependent (is_addr (from pt)).
  generalize dependent (named_dns (to pt)). generalize dependent (named_dns (from pt)). intros. apply both_sides; [exact Logic.I| |]; destruct Na2 as [Na2|Na2]; destruct Nd as [Nd|Nd]; tauto.
Qed.
(** The traffic from addresses to pods: the pods of the egress gateway that the routes of the mesh lead to cannot be reached. *)
Theorem C68_from_addresses : forall f, f_all f = true -> forall pt, space pt -> a_tcp pt = true -> is_addr (from pt) -> member (cl_peers cl) (to pt) -> ~ named_dns (to pt) ->
  (pt @ all_allowed (layer_conns A LIstioGateway (cl_peers cl) pols f) <-> ~ entrance_pod (to pt)).
Proof using R Hc HC Hp GN GG VG Ng Nv EP.
  intros f Hf pt Sp T Mf Mt Nt. destruct (exact_layer_ok std_dom std_rest reg reg std_peers [Ivl 0 255] K LIstioGateway pols gw_exact) as [O1 O2].
  destruct (layer_conns_spec A _ _ _ _ _ _ _ _ L (cl_peers cl) HC LIstioGateway pols f O1 O2 (fun _ => Hf)) as (_ & _ & _ & _ & M).
  destruct (M pt Sp) as (_ & _ & Ma). refine (iff_trans Ma _). clear Ma M.
  destruct (C67_gateway_policies pols Ng Nv EP) as (_ & _ & RE & RI & Q). destruct (Q pt Sp) as (Q1 & Q2 & Q3 & Q4).
  destruct (gw_verdicts true pt Sp) as [VI1 VI2].
  unfold layer_allows, layer_in, layer_out, dir_explicit, dir_default, istio_default, anywhere_no_dns, pod. cbv beta iota.
  assert (X1 : (exists P, In P pols /\ acting true P Allow pt) <-> comes_in pt) by exact Q3.
  assert (X2 : ~ exists P, In P pols /\ acting true P Deny pt) by exact Q4.
  rewrite T, VI1, VI2, !gw_captured, RI, X1.
  assert (NC : ~ comes_in pt) by (intros H; destruct (comes_from_pod pt H) as (k & i & Ek); rewrite Ek in Mf; destruct Mf).
  assert (Na : ~ is_addr (to pt)) by (intros X; destruct (to pt); [destruct X|exact Mt]).
  assert (X6 : true = false <-> False) by (split; [discriminate|tauto]). rewrite X6. clear - Hf Mf Mt Nt NC Na X2. tauto.
Qed.
(** Other protocols are not restricted. *)
Theorem C68_non_tcp : forall f, f_all f = true -> forall pt, space pt -> a_tcp pt = false ->
  (is_addr (from pt) \/ member (cl_peers cl) (from pt) /\ ~ named_dns (from pt)) ->
  (is_addr (to pt) \/ member (cl_peers cl) (to pt) /\ ~ named_dns (to pt)) -> pt @ all_allowed (layer_conns A LIstioGateway (cl_peers cl) pols f).
Proof using R Hc HC Hp GN GG VG Ng Nv EP.
  intros f Hf pt Sp T Hs Hd. destruct (exact_layer_ok std_dom std_rest reg reg std_peers [Ivl 0 255] K LIstioGateway pols gw_exact) as [O1 O2].
  destruct (layer_conns_spec A _ _ _ _ _ _ _ _ L (cl_peers cl) HC LIstioGateway pols f O1 O2 (fun _ => Hf)) as (_ & _ & _ & _ & M).
  destruct (M pt Sp) as (_ & _ & Ma). apply Ma. split; auto.
  unfold layer_allows, layer_in, layer_out, dir_default, istio_default, anywhere_no_dns. split; right; left; left; tauto.
Qed.
(** The way of requests through an egress gateway is closed on both sides: what reaches an external destination of the gateway comes from the
    gateway's own pods, and what reaches the gateway comes from the mesh by one of the routes. *)
Corollary C68_only_through_the_gateway : forall f, f_all f = true -> forall pt vs r g d, space pt -> a_tcp pt = true -> member (cl_peers cl) (from pt) -> ~ named_dns (from pt) ->
  way_out -> serves_at true vs r g -> In d (rt_dests r) -> pt_in (to pt) (ds_pods d) -> pt_in (from pt) (all_group cl) -> ~ gateway_pod (from pt) ->
  ~ pt @ all_allowed (layer_conns A LIstioGateway (cl_peers cl) pols f).
Proof using R Hc HC Hp GN GG VG Ng Nv EP.
  intros f Hf pt vs r g d Sp T Mf Nf Wo Sv Hd Ht Hg NG Al.
  pose proof Sv as (V1 & V2 & V3 & V4 & V5). pose proof (cluster_member _ _ (proj1 (proj1 (proj2 (proj2 (VG vs V1)) r V2) d Hd)) Ht) as Mt.
  apply (C68_from_pods f Hf pt Sp T Mf Nf (or_intror Mt)) in Al as [_ [Lv|[_ NB]]].
  - apply NG. destruct Lv as (eg & vs' & r' & g' & Ac & Sv' & Rt). exists eg, vs', r', g'. split; auto. split; auto. apply Rt.
  - apply NB. split; auto. exists vs, r, g, d. split; auto. split; auto. split; auto. split; auto. intros X. apply NG. exists true, vs, r, g. split; [intros _; exact Wo|auto].
Qed.
End Gw.
