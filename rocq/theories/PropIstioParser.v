(** * C53, C54: Istio AuthorizationPolicy documents, from the decoded YAML to the allowed connections.

    What a rule entry means ([istio_rule_matches] and the definitions before it) is in IstioParserFacts.v, what a value means
    ([value_matches]) in PropIstioValues.v; neither refers to the parser. *)
From Coq Require Import ZArith List Bool Arith Lia String Ascii Permutation.
From Verif Require Import IntervalModel IntervalFacts HyperModel HyperFacts HyperOps HyperDims HyperTop HyperInst
                          PropHyperCube ConnModel ConnFacts TextModel TextFacts PortProtoModel PortProtoFacts PeerModel PeerFacts PeerSetFacts
                          PolicyModel PolicyLaws PolicyFacts LayerFacts OrderFacts ConnAlg StdDims PropLayers YamlModel ClusterModel K8sParserModel SelectorFacts
                          ConnDict NamedExcl PropSelectors K8sParserFacts PropK8sParser CalicoSelectorModel CalicoSelectorFacts CalicoSelectorGram
                          CalicoSelectorSets CalicoParserModel CalicoParserFacts CalicoRuleFacts PropCalicoParser
                          IstioValueModel PropIstioValues IstioParserModel IstioParserFacts IstioRuleFacts.
From Verif Require SemDiff.
Import ListNotations.
Local Open Scope string_scope.
Local Open Scope list_scope.
Local Open Scope nat_scope.
Local Opaque min_pod_index max_pod_index min_ipv6_index max_ipv6_index max_ipv4_index v4max v6min v6max.

(** ** The parts of a document *)
(** The namespace: the one of the metadata if not empty, else "default".  A missing spec is an empty one. *)
Definition ap_ns (md : list (string * yaml)) (ns : string) : Prop :=
  (yget md "namespace" = YStr ns /\ ns <> "") \/ ((yget md "namespace" = YNull \/ yget md "namespace" = YStr "") /\ ns = "default").
Definition ap_doc (y : yaml) (name ns : string) (sp : list (string * yaml)) : Prop :=
  exists m md, y = YMap m /\ yget m "kind" = YStr "AuthorizationPolicy" /\ yget m "metadata" = YMap md /\ yget md "name" = YStr name /\
    (yget m "spec" = YMap sp \/ yget m "spec" = YNull /\ sp = []) /\ ap_ns md ns.
Lemma ap_doc_fn : forall y n s sp n' s' sp', ap_doc y n s sp -> ap_doc y n' s' sp' -> n' = n /\ s' = s /\ sp' = sp.
Proof.
  intros y n s sp n' s' sp' (m & md & -> & E1 & E2 & E3 & E4 & E5) (m' & md' & E & F1 & F2 & F3 & F4 & F5). injection E as <-.
  rewrite E2 in F2. injection F2 as <-. rewrite E3 in F3. injection F3 as <-. split; auto. split.
  - destruct E5 as [[A1 A2]|[[A1|A1] A2]], F5 as [[B1 B2]|[[B1|B1] B2]]; congruence.
  - destruct E4 as [A|[A ->]], F4 as [B|[B ->]]; congruence.
Qed.
Definition ap_action (y : yaml) (a : action) : Prop :=
  exists name ns sp, ap_doc y name ns sp /\ (yget sp "action" = YStr "DENY" /\ a = Deny \/ yget sp "action" <> YStr "DENY" /\ a = Allow).
Definition ap_entries (y : yaml) (m : list (string * yaml)) : Prop := exists name ns sp, ap_doc y name ns sp /\ In (YMap m) (ylist (yget sp "rules")).
(** The workloads: the pods of its namespace - of all namespaces, in the root namespace - that have all labels of the selector. *)
Definition ap_selects (cl : cluster) (y : yaml) (x : point) : Prop :=
  exists name ns sp i, ap_doc y name ns sp /\ x = PN 0 i /\ In (Named 0 i) (cl_peers cl) /\
    (ns = "istio-config" \/ cl_ns cl (Named 0 i) = Some ns) /\
    forall s l k v, yget sp "selector" = YMap s -> yget s "matchLabels" = YMap l -> In (k, v) l -> exists w, v = YStr w /\ pod_has cl (Named 0 i) k w.

(** ** The selected workloads *)
Section Docs.
Context (reg : list peer) (cl : cluster) (Hc : cluster_ok cl) (Hk : kinds_ok cl) (HC : container reg (cl_peers cl)).
(** In the root namespace, a selector may pick host endpoints (F60). *)
Definition selector_benign (ns : string) (sp : list (string * yaml)) : Prop :=
  ns <> "istio-config" \/ yget sp "selector" = YNull \/ forall q, In q (cl_peers cl) -> is_hep q = false.
Lemma pod_of : forall q, In q (cl_peers cl) -> is_dns q = false -> is_hep q = false -> exists i, q = Named 0 i.
Proof using Hc Hk.
  intros q Hq D H. destruct (Hc q Hq) as (k & i & -> & X). exists i. f_equal. apply X. apply (pod_iff cl Hc Hk _ Hq). auto.
Qed.
Lemma pod_flags : forall i, is_dns (Named 0 i) = false /\ is_hep (Named 0 i) = false.
Proof using. intros i. split; reflexivity. Qed.
Lemma label_fold_In : forall (l : list (string * yaml)) s,
  fold_left (fun acc kv => meet acc (Some (match snd kv with YStr v => peers_with_label cl (fst kv) [v] FIn None | _ => [] end))) l (Some (all_group cl)) = Some s ->
  plain s /\ forall q, In q s <-> In q (cl_peers cl) /\ is_dns q = false /\ forall k v, In (k, v) l -> exists w, v = YStr w /\ pod_has cl q k w.
Proof using Hc.
  intros l s E. pose proof (cluster_plain cl Hc) as Pc.
  set (f := fun kv : string * yaml => Some (match snd kv with YStr v => peers_with_label cl (fst kv) [v] FIn None | _ => [] end)) in *.
  destruct (meet_fold_In f l (all_group cl) s) as [P M]; auto.
  - apply all_group_plain; auto.
  - intros [k v] t _ Et. unfold f in Et. cbn [fst snd] in Et. injection Et as <-. destruct v; try (intros q []). apply select_plain; auto.
  - split; auto. intros q. rewrite M, all_group_In by auto.
    assert (L : forall k w, In q (cl_peers cl) -> (In q (peers_with_label cl k [w] FIn None) <-> pod_has cl q k w)).
    { intros k w Hq. unfold peers_with_label. rewrite select_In. cbn [ns_is andb]. rewrite orb_true_iff, !get_in_spec. unfold pod_has. split.
      - intros [_ [(u & E1 & [->|[]])|(u & E1 & [->|[]])]]; auto.
      - intros [H|H]; (split; [auto|]); [left|right]; exists w; split; auto; left; auto. }
    split.
    + intros [[H1 H2] H3]. split; auto. split; auto. intros k v Hv. specialize (H3 (k, v) _ Hv eq_refl). cbn [fst snd] in H3.
      destruct v; try (destruct H3; fail). exists s0. split; auto. apply L; auto.
    + intros (H1 & H2 & H3). split; auto. intros [k v] t Hv Et. unfold f in Et. cbn [fst snd] in Et. injection Et as <-.
      destruct (H3 k v Hv) as (w & -> & H4). apply L; auto.
Qed.
Lemma workload_selector_In : forall y s, workload_selector cl "matchLabels" y = Some s ->
  plain s /\ forall q, In q s <-> In q (cl_peers cl) /\ is_dns q = false /\
    forall m l k v, y = YMap m -> yget m "matchLabels" = YMap l -> In (k, v) l -> exists w, v = YStr w /\ pod_has cl q k w.
Proof using Hc.
  intros y s E. unfold workload_selector in E. destruct (ytrue y) eqn:T; cbn [negb] in E.
  - destruct (check_fields y _) as [m|] eqn:Ec; [|discriminate]. cbn [bind] in E. apply check_fields_map in Ec as [-> _].
    destruct (yget m "matchLabels") as [| | | | | |[|kv t]] eqn:El; try discriminate.
    destruct (label_fold_In (kv :: t) s E) as [P M]. split; auto. intros q. rewrite M. split.
    + intros (H1 & H2 & H3). split; auto. split; auto. intros m' l k v Em El'. injection Em as <-. rewrite El in El'. injection El' as <-. apply H3.
    + intros (H1 & H2 & H3). split; auto. split; auto. intros k v. apply (H3 m (kv :: t)); auto.
  - injection E as <-. pose proof (cluster_plain cl Hc) as Pc. split; [apply all_group_plain; auto|]. intros q. rewrite all_group_In by auto. split; [|tauto].
    intros [H1 H2]. split; auto. split; auto. intros m l k v -> El Hv. destruct m; discriminate.
Qed.
Lemma policy_peers_spec : forall y name ns sp s, ap_doc y name ns sp -> policy_peers cl ns "matchLabels" (yget sp "selector") = Some s -> selector_benign ns sp ->
  pok reg s /\ (forall x, pt_in x s -> member (cl_peers cl) x) /\ forall x, pt_in x s <-> ap_selects cl y x.
Proof using Hc Hk HC.
  intros y name ns sp s D E B. unfold policy_peers in E. pose proof (cluster_plain cl Hc) as Pc.
  match type of E with bind ?e _ = _ => destruct e as [sel|] eqn:Es; [|discriminate] end. cbn [bind] in E.
  assert (X : plain sel /\ forall q, In q sel <-> (In q (cl_peers cl) /\ is_dns q = false /\
    forall m l k v, yget sp "selector" = YMap m -> yget m "matchLabels" = YMap l -> In (k, v) l -> exists w, v = YStr w /\ pod_has cl q k w) /\
    (yget sp "selector" = YNull -> is_hep q = false)).
  { destruct (yget sp "selector") as [|b|z|z|w|l|m] eqn:Ey.
    1:{ injection Es as <-. split.
        - intros q Hq. apply filter_In in Hq as [Hq _]. apply (all_group_plain cl Pc q Hq).
        - intros q. rewrite filter_In, all_group_In, negb_true_iff by auto. split; [|tauto]. intros [[H1 H2] H3]. repeat split; auto. intros m l k v Em. discriminate. }
    all: destruct (workload_selector_In _ _ Es) as [P M]; split; auto; intros q; rewrite M; (split; [|tauto]); intros H; split; auto; discriminate. }
  destruct X as [Ps Ms].
  assert (Y : plain s /\ forall q, In q s <-> In q sel /\ (ns = "istio-config" \/ cl_ns cl q = Some ns)).
  { unfold root_namespace in E. destruct (String.eqb_spec ns "istio-config") as [->|Nr].
    - injection E as <-. split; auto. intros q. tauto.
    - destruct (plain_inter sel (namespace_pods cl (Some ns)) Ps (ns_pods_plain cl Hc (Some ns))) as (r & Er & Pr & Mr). rewrite E in Er. injection Er as <-.
      split; auto. intros q. rewrite Mr, (namespace_pods_In cl (Some ns) q). cbn. split; [intros [H1 [H2 H3]]; auto|]. intros [H1 [H2|H2]]; [tauto|].
      split; auto. split; auto. apply Ms in H1. tauto. }
  destruct Y as [Pq Mq].
  assert (IN : forall q, In q s -> In q (cl_peers cl)) by (intros q H; apply Mq in H as [H _]; apply Ms in H; tauto).
  split; [apply (plain_pok cl reg HC); auto|]. split.
  - intros x H. apply (plain_pt s x Pq) in H as (q & H & k & i & -> & ->). apply IN. exact H.
  - intros x. rewrite (plain_pt s x Pq). unfold ap_selects. split.
    + intros (q & H & k & i & -> & ->). pose proof (IN _ H) as Hq. apply Mq in H as [H1 H2]. apply Ms in H1 as ((_ & H3 & H4) & H5).
      assert (NH : is_hep (Named k i) = false).
      { destruct H2 as [->|H2]; [destruct B as [B|[B|B]]; [congruence|auto|auto]|]. apply (pod_iff cl Hc Hk _ Hq). rewrite H2. discriminate. }
      destruct (pod_of _ Hq H3 NH) as (j & Ej). injection Ej as -> <-. exists name, ns, sp, i. auto.
    + intros (n' & s' & sp' & i & D' & -> & H1 & H2 & H3). destruct (ap_doc_fn _ _ _ _ _ _ _ D D') as (-> & -> & ->).
      exists (Named 0 i). split; [|exists 0, i; auto]. apply Mq. split; auto. apply Ms. destruct (pod_flags i) as [F1 F2].
      split; [|auto]. split; auto.
Qed.
End Docs.

(** ** Inversion of the parser *)
Section Parse.
Context (cl : cluster) (net : yaml -> option cidr) (sa : peer -> string) (O : vops val Z) (dfa : list ascii -> val).
Context (A : cops conns) (mk : cdict -> conns) (all : conns) (nss : list string).
Notation parse := (istio_policy cl net sa O dfa A mk all nss).
Notation rule_in := (fun ns => istio_rule cl net sa O dfa (with_namespace nss ns) A mk all).
Definition spec_given (y : yaml) : Prop := forall m, y = YMap m -> yget m "spec" <> YNull.
Lemma istio_policy_inv : forall y p, parse y = Some (Some p) -> spec_given y ->
  exists name ns nk sp, ap_doc y name ns sp /\ p_name p = name /\ p_ns p = ns /\ p_kind p = TIstioAP /\ p_affects_in p = true /\ p_affects_eg p = false /\
    policy_peers cl ns "matchLabels" (yget sp "selector") = Some (p_selected p) /\ p_egress p = [] /\ p_ord p = None /\
    mapM (rule_in nk (p_selected p)) (ylist (yget sp "rules")) = Some (p_ingress p) /\
    (yget sp "action" = YStr "DENY" /\ p_action p = Deny \/ yget sp "action" <> YStr "DENY" /\ p_action p = Allow) /\ (p_action p = Deny -> p_ingress p <> []).
Proof using.
  intros y p E SG. unfold istio_policy in E.
  match type of E with bind ?e _ = _ => destruct e as [o|] eqn:Eg; [|discriminate] end. cbn [bind] in E.
  destruct o as [[[m name] nsy]|]; [|discriminate].
  unfold parse_generic in Eg. destruct y as [| | | | | |m0]; try discriminate.
  destruct (negb (among _ (yget m0 "kind"))) eqn:Ek; [discriminate|].
  destruct (yget m0 "apiVersion") as [| | | |v| |]; try discriminate;
    [|destruct (existsb _ _); discriminate|destruct (existsb _ _); discriminate].
  match type of Eg with (if ?b then _ else _) = _ => destruct b; [discriminate|] end. match type of Eg with bind ?e _ = _ => destruct e as [mm|] eqn:Ec; [|discriminate] end. cbn [bind] in Eg.
  apply check_fields_map in Ec as [Em F]. injection Em as <-.
  destruct (check_fields (yget m0 "metadata") metadata_fields) as [md|] eqn:Ed; [|discriminate]. cbn [bind] in Eg.
  apply check_fields_map in Ed as [Ed Fm]. destruct (yget md "name") as [| | | |nm| |] eqn:Enm; try discriminate. injection Eg as <- <- <-.
  apply negb_false_iff in Ek. destruct (yget m0 "kind") as [| | | |kind| |] eqn:Ekd; try discriminate.
  assert (Hkind : kind = "AuthorizationPolicy") by (apply smem_In in Ek; destruct Ek as [<-|[]]; reflexivity). subst kind.
  set (nsy := match assoc_s "namespace" md with Some v0 => v0 | None => YStr "default" end) in *.
  destruct nsy as [| | | |ns| |] eqn:En; try discriminate.
  assert (Hns : ap_ns md (ns_name ns)).
  { unfold nsy in En. unfold ap_ns, yget, ns_name. destruct (assoc_s "namespace" md) as [v0|].
    - subst v0. destruct (String.eqb_spec ns "") as [Q|Q]; [subst ns; right|left]; auto.
    - injection En as <-. right. auto. }
  pose proof (SG m0 eq_refl) as Sg.
  assert (E' : exists sp, yget m0 "spec" = YMap sp /\
     (let act := match yget sp "action" with YStr a => if String.eqb a "DENY" then Deny else Allow | _ => Allow end in
      bind (policy_peers cl (ns_name ns) "matchLabels" (yget sp "selector")) (fun sel =>
      bind (bind (match yget_list sp "rules" with YList l => Some l | _ => None end) (mapM (rule_in ns sel))) (fun rules =>
      match act, rules with
      | Deny, [] => None
      | _, _ => Some (Some (Policy nm (ns_name ns) TIstioAP true false sel rules [] None act))
      end))) = Some (Some p)).
  { destruct (yget m0 "spec") as [| | | | | |sp]; try congruence; try (cbn [check_fields bind] in E; discriminate).
    exists sp. split; auto. match type of E with bind ?e _ = _ => destruct e as [sp'|] eqn:Ec; [|discriminate] end. cbn [bind] in E.
    apply check_fields_map in Ec as [Ec _]. injection Ec as <-. exact E. }
  clear E. destruct E' as (sp & Esp & E). cbv zeta in E.
  destruct (policy_peers cl (ns_name ns) "matchLabels" (yget sp "selector")) as [sel|] eqn:Es; [|discriminate]. cbn [bind] in E.
  match type of E with bind ?e _ = _ => destruct e as [rules|] eqn:Er; [|discriminate] end. cbn [bind] in E.
  assert (Er' : mapM (rule_in ns sel) (ylist (yget sp "rules")) = Some rules).
  { unfold yget_list, yget in *. destruct (assoc_s "rules" sp) as [v0|]; [|exact Er]. destruct v0; try discriminate. exact Er. }
  set (act := match yget sp "action" with YStr a => if String.eqb a "DENY" then Deny else Allow | _ => Allow end) in *.
  assert (Ea : yget sp "action" = YStr "DENY" /\ act = Deny \/ yget sp "action" <> YStr "DENY" /\ act = Allow).
  { unfold act. destruct (yget sp "action") as [| | | |a| |]; try (right; split; [discriminate|reflexivity]). destruct (String.eqb_spec a "DENY") as [Q|N]; [left|right]; split; congruence. }
  clearbody act.
  exists nm, (ns_name ns), ns, sp. split; [exists m0, md; auto 10|].
  assert (P : p = Policy nm (ns_name ns) TIstioAP true false sel rules [] None act /\ (act = Deny -> rules <> [])).
  { destruct act; destruct rules; try discriminate; injection E as <-; split; try reflexivity; intros; try discriminate. }
  destruct P as [-> P]. cbn [p_name p_ns p_kind p_affects_in p_affects_eg p_selected p_egress p_ord p_ingress p_action]. repeat (split; [auto; fail|]). auto.
Qed.
End Parse.

(** ** C53: what a parsed policy means *)
Section Meaning.
Context (reg : list peer) (R : reg_ok reg).
Context (cl : cluster) (Hc : cluster_ok cl) (Hk : kinds_ok cl) (HC : container reg (cl_peers cl)).
Context (Hp : forall p nm n pr, assoc_s nm (cl_ports cl p) = Some (n, pr) -> (1 <= n <= 65535)%Z).
Context (net : yaml -> option cidr) (Hnet : forall y c, net y = Some c -> cidr_ok c) (sa : peer -> string).
Context (code : word -> Z) (dfa : list ascii -> val) (CO : code_ok code).
Context (nss : list string) (Hn : namespaces_ok cl nss).
Let K := std_alg reg R.
Let A := cube_ops std_dom std_all reg.
Let W := cube_laws std_dom std_rest reg reg std_peers [Ivl 0 255] K.
Notation space := (a_space std_dom).
Notation from := (a_src reg).
Notation to := (a_dst reg).
Notation mk := (conns_of std_dom reg (cl_ports cl)).
Notation parse := (istio_policy cl net sa (val_ops std_dom) dfa A mk (hall Conn) nss).
(** Documents outside the findings. *)
Definition benign_ap (y : yaml) : Prop :=
  spec_given y /\
  (forall name ns sp, ap_doc y name ns sp -> selector_benign cl ns sp) /\
  forall m, ap_entries y m -> rule_benign cl sa code dfa m.
(** The document has a rule entry that matches the connection, whose host and path are [h] and [w]. *)
Definition ap_entry_matches (y : yaml) (pt : conn) (h w : word) : Prop :=
  exists m, ap_entries y m /\ istio_rule_matches cl net sa m (from pt) (pt 2) (pt 4) (pt 5) h w.
Lemma with_namespace_ok : forall ns, namespaces_ok cl (with_namespace nss ns).
Proof using Hn.
  intros ns q n Hq E. destruct (Hn q n Hq E) as [H1 H2]. split; auto. unfold with_namespace. destruct (smem ns nss); auto. apply in_or_app. auto.
Qed.
Lemma ap_spec : forall y p, parse y = Some (Some p) -> benign_ap y ->
  p_kind p = TIstioAP /\ policy_wf std_dom std_rest reg p /\ confined std_dom reg (cl_peers cl) p /\
  ap_action y (p_action p) /\ (forall x, pt_in x (p_selected p) <-> ap_selects cl y x) /\
  forall pt h w, space pt -> words_at code pt h w -> (some_rule (p_ingress p) pt <-> ap_selects cl y (to pt) /\ ap_entry_matches y pt h w).
Proof using R Hc Hk HC Hp Hnet CO Hn.
  intros y p E (B1 & B3 & B4).
  destruct (istio_policy_inv _ _ _ _ _ _ _ _ _ y p E B1) as (name & ns & nk & sp & D & _ & _ & Ek & _ & _ & Es & Ee & _ & Er & Ea & _).
  destruct (policy_peers_spec reg cl Hc Hk HC y name ns sp _ D Es (B3 name ns sp D)) as (Ps & Mb & Ms).
  assert (SP : forall e r, In e (ylist (yget sp "rules")) -> istio_rule cl net sa (val_ops std_dom) dfa (with_namespace nss nk) A mk (hall Conn) (p_selected p) e = Some r ->
    exists m, e = YMap m /\ a_ok std_dom std_rest (r_props r) /\ (forall pt, space pt -> pt @ r_props r -> pt_in (to pt) (p_selected p)) /\
      forall pt h w, space pt -> words_at code pt h w -> (pt @ r_props r <-> istio_rule_matches cl net sa m (from pt) (pt 2) (pt 4) (pt 5) h w /\ ap_selects cl y (to pt))).
  { intros e r He Hr. destruct (istio_rule_spec reg R cl Hc Hk HC Hp net Hnet sa code dfa CO _ _ e r (with_namespace_ok nk) Ps Mb Hr) as (_ & m & -> & X).
    exists m. split; auto. destruct X as (X1 & X2 & X3); [apply B4; exists name, ns, sp; auto|]. split; auto. split; auto.
    intros pt h w Sp Hw. rewrite (X3 pt h w Sp Hw), Ms. tauto. }
  pose proof (mapM_In _ _ _ Er) as MI.
  assert (F2 : Forall2 (fun e r => istio_rule cl net sa (val_ops std_dom) dfa (with_namespace nss nk) A mk (hall Conn) (p_selected p) e = Some r)
                 (ylist (yget sp "rules")) (p_ingress p)) by (apply (mapM_Forall2 _ _ _ _ _ _ (fun x z _ H => H) Er)).
  split; auto. split; [|split; [|split; [|split]]].
  - split; auto. intros r Hr. rewrite Ee, app_nil_r in Hr. apply MI in Hr as (e & He & Hr). destruct (SP e r He Hr) as (m & _ & X & _). split; [exact X|].
    intros IC. unfold is_calico in IC. rewrite Ek in IC. destruct IC as [IC|[IC|IC]]; discriminate.
  - split; [|split].
    + intros r pt Sp Hr M. apply MI in Hr as (e & He & Hr). destruct (SP e r He Hr) as (m & _ & _ & X & _). apply (X pt Sp M).
    + intros r pt Sp Hr. rewrite Ee in Hr. destruct Hr.
    + exact Mb.
  - exists name, ns, sp. auto.
  - exact Ms.
  - intros pt h w Sp Hw. unfold some_rule, ap_entry_matches, ap_entries. split.
    + intros (r & Hr & M). apply MI in Hr as (e & He & Hr). destruct (SP e r He Hr) as (m & -> & _ & _ & X). apply (X pt h w Sp Hw) in M as [M1 M2].
      split; auto. exists m. split; auto. exists name, ns, sp. auto.
    + intros (S & m & (n' & s' & sp' & D' & Hm) & M). destruct (ap_doc_fn _ _ _ _ _ _ _ D D') as (-> & -> & ->).
      assert (G : exists r, In r (p_ingress p) /\ istio_rule cl net sa (val_ops std_dom) dfa (with_namespace nss nk) A mk (hall Conn) (p_selected p) (YMap m) = Some r).
      { clear - F2 Hm. induction F2 as [|e r es rs H F IH]; [destruct Hm|]. destruct Hm as [->|Hm]; [exists r; split; [left|]; auto|].
        destruct (IH Hm) as (r' & A1 & A2). exists r'. split; [right|]; auto. }
      destruct G as (r & Hr & Er2). destruct (SP _ r Hm Er2) as (m' & Em & _ & _ & X). injection Em as <-. exists r. split; auto. apply (X pt h w Sp Hw). auto.
Qed.
(** The policy selects the workloads of the document, has its action, and its rules match what its rule entries match. *)
Theorem C53_selected_workloads : forall y p, parse y = Some (Some p) -> benign_ap y -> forall x, pt_in x (p_selected p) <-> ap_selects cl y x.
Proof using R Hc Hk HC Hp Hnet CO Hn. intros y p E B. apply (ap_spec y p E B). Qed.
Theorem C53_action : forall y p, parse y = Some (Some p) -> benign_ap y -> p_kind p = TIstioAP /\ forall a, p_action p = a <-> ap_action y a.
Proof using R Hc Hk HC Hp Hnet CO Hn.
  intros y p E B. destruct (ap_spec y p E B) as (H1 & _ & _ & H2 & _). split; auto. intros a. split; [intros <-; auto|].
  intros (n & s & sp & D & Ha). destruct H2 as (n' & s' & sp' & D' & Hb). destruct (ap_doc_fn _ _ _ _ _ _ _ D D') as (-> & -> & ->).
  destruct Ha as [[H ->]|[H ->]], Hb as [[H' ->]|[H' ->]]; congruence.
Qed.
Theorem C53_rules_match : forall y p, parse y = Some (Some p) -> benign_ap y ->
  forall pt h w, space pt -> words_at code pt h w -> (some_rule (p_ingress p) pt <-> ap_selects cl y (to pt) /\ ap_entry_matches y pt h w).
Proof using R Hc Hk HC Hp Hnet CO Hn. intros y p E B. apply (ap_spec y p E B). Qed.
(** What allowed_connections computes for the policy: it allows, or denies, exactly what its rule entries match. *)
Theorem C53_allowed_and_denied : forall y p, parse y = Some (Some p) -> benign_ap y ->
  forall pt h w, space pt -> words_at code pt h w -> let r := policy_conns A p true in
  (pt @ allowed r <-> ap_action y Allow /\ ap_selects cl y (to pt) /\ ap_entry_matches y pt h w) /\
  (pt @ denied r <-> ap_action y Deny /\ ap_selects cl y (to pt) /\ ap_entry_matches y pt h w) /\ ~ pt @ passed r.
Proof using R Hc Hk HC Hp Hnet CO Hn.
  intros y p E B pt h w Sp Hw. cbv zeta. destruct (ap_spec y p E B) as (H1 & H2 & _ & _ & _ & H3). specialize (H3 pt h w Sp Hw).
  destruct (C53_action y p E B) as [_ Ha].
  assert (S : policy_safe A (a_safe std_rest) true p) by (intros X; rewrite H1 in X; discriminate).
  destruct (policy_conns_spec A _ _ _ _ _ _ _ _ W true p (wf_ok std_dom std_rest reg p H2) S) as (_ & _ & _ & _ & M). destruct (M pt Sp) as (M1 & M2 & M3).
  rewrite <- !Ha, <- !H3.
  assert (OP : forall a, policy_says a_mem true pt p a <-> a = p_action p /\ (a = Allow \/ a = Deny) /\ some_rule (p_ingress p) pt).
  { intros a. rewrite <- says_bridge. unfold opinion. rewrite H1. tauto. }
  split; [refine (iff_trans M1 _)|split; [refine (iff_trans M2 _)|intros H; apply M3 in H; revert H]]; rewrite OP; clear - H1; intuition congruence.
Qed.

(** ** C54: Kubernetes, Calico and Istio documents together *)
Lemma all_added : forall pols : list policy, (forall p, In p pols -> p_kind p <> TUnknown) -> NoDup (map (fun p => (full_name p, p_kind p)) pols) ->
  map snd (policies (add_all pcont_init pols)) = pols.
Proof using.
  induction pols as [|p pols IH] using rev_ind; intros HU ND; [reflexivity|].
  assert (ND' : NoDup (map (fun p => (full_name p, p_kind p)) pols) /\ ~ In (full_name p, p_kind p) (map (fun p => (full_name p, p_kind p)) pols)).
  { rewrite map_app in ND. cbn [map] in ND. apply NoDup_remove in ND. rewrite app_nil_r in ND. exact ND. }
  destruct ND' as [N1 N2]. assert (I1 : map snd (policies (add_all pcont_init pols)) = pols) by (apply IH; [intros q Hq; apply HU; apply in_or_app; auto|auto]).
  assert (Ea : add_all pcont_init (pols ++ [p]) = match append_policy (add_all pcont_init pols) p with Some c' => c' | None => add_all pcont_init pols end) by (unfold add_all; rewrite fold_left_app; reflexivity).
  rewrite Ea. destruct (C27_append pols p) as [C1 C2]. destruct (append_policy (add_all pcont_init pols) p) as [c'|] eqn:Ep.
  - rewrite (C2 c' eq_refl), I1. auto.
  - exfalso. destruct (proj1 C1 eq_refl) as [H|(q & H1 & H2 & H3)]; [apply (HU p); auto; apply in_or_app; right; left; auto|].
    apply N2. rewrite I1 in H1. rewrite <- H2, <- H3. apply (in_map (fun p => (full_name p, p_kind p)) _ _ H1).
Qed.
Lemma lays_lget : forall (added : list policy) n l, let c := add_all pcont_init added in In (n, l) (lays c) <-> lget (lays c) n = Some l.
Proof using.
  intros added n l c. assert (ND : NoDup (map fst (lays c))) by apply (C27_invariants added). clearbody c. revert ND. generalize (lays c). clear.
  induction l0 as [|[k v] t IH]; intros ND; [split; [intros []|discriminate]|]. inversion ND as [|? ? N1 N2]; subst. unfold lget in *. cbn [find fst].
  destruct (lname_eqb k n) eqn:E.
  - apply lname_eqb_eq in E as ->. cbn [In option_map snd]. split.
    + intros [H|H]; [congruence|]. destruct N1. apply (in_map fst _ _ H).
    + intros H. left. cbn in H. congruence.
  - rewrite <- (IH N2). cbn [In]. split; [|auto]. intros [H|H]; auto. injection H as -> ->. assert (X : lname_eqb n n = true) by (apply lname_eqb_eq; auto). congruence.
Qed.
Context (Hempty : net (YStr "") = None) (profiles : peer -> list string).
(** What Istio says about a TCP connection (others are not restricted): into a pod, no DENY document applies and matches, and
    some ALLOW document applies and matches, or none applies; out of a pod, the Sidecars. *)
Definition istio_into (docs : list yaml) (pt : conn) (h w : word) : Prop :=
  (forall y, In y docs -> ap_action y Deny -> ap_selects cl y (to pt) -> ~ ap_entry_matches y pt h w) /\
  ((exists y, In y docs /\ ap_action y Allow /\ ap_selects cl y (to pt) /\ ap_entry_matches y pt h w) \/
   (forall y, In y docs -> ap_action y Allow -> ~ ap_selects cl y (to pt))).
Definition istio_allows (docs : list yaml) (sidecars : list policy) (pt : conn) (h w : word) : Prop :=
  pt 2 = 6%Z -> (is_addr (to pt) \/ istio_into docs pt h w) /\ (is_addr (from pt) \/ sidecar_matches reg sidecars pt \/ ~ sidecar_restricts sidecars (from pt)).
Section Set_of_docs.
Context (kdocs : list document) (kpols : list policy) (KF : Forall2 (fun d p => parse_doc reg cl net profiles d = Some (Some p)) kdocs kpols).
Context (KB : forall d, In d kdocs -> doc_benign reg cl net profiles d).
Context (adocs : list yaml) (apols : list policy) (AF : Forall2 (fun y p => parse y = Some (Some p)) adocs apols) (AB : forall y, In y adocs -> benign_ap y).
Context (sidecars : list policy).
Context (SC : forall p, In p sidecars -> p_kind p = TSidecar /\ policy_wf std_dom std_rest reg p /\ confined std_dom reg (cl_peers cl) p).
(** The policies are added in any order, the Sidecars last; all have different names or kinds. *)
Context (added : list policy) (AP : Permutation (kpols ++ apols) added).
Context (ND : NoDup (map (fun p => (full_name p, p_kind p)) (added ++ sidecars))).
Notation cont := (add_all pcont_init (added ++ sidecars)).
Lemma ap_of : forall p, In p apols -> exists y, In y adocs /\ parse y = Some (Some p).
Proof using AF. intros p H. clear - AF H. induction AF as [|y q ys qs E F IH]; [destruct H|]. destruct H as [<-|H]; [exists y; split; [left|]; auto|]. destruct (IH F H) as (y' & H1 & H2). exists y'. split; [right|]; auto. Qed.
Lemma ap_in : forall y, In y adocs -> exists p, In p apols /\ parse y = Some (Some p).
Proof using AF. intros p H. clear - AF H. induction AF as [|y q ys qs E F IH]; [destruct H|]. destruct H as [<-|H]; [exists q; split; [left|]; auto|]. destruct (IH F H) as (y' & H1 & H2). exists y'. split; [right|]; auto. Qed.
Lemma kpol_layer : forall p, In p kpols -> layer_of_type (p_kind p) = Some LK8sCalico /\ p_kind p <> TUnknown.
Proof using KF. intros p H. destruct (pair_In_r _ _ _ KF p H) as (d & _ & E). exact (doc_layer reg cl net profiles d p E). Qed.
Lemma apol_kind : forall p, In p apols -> p_kind p = TIstioAP.
Proof using R Hc Hk HC Hp Hnet CO Hn AF AB. intros p H. destruct (ap_of p H) as (y & Hy & E). apply (ap_spec y p E (AB y Hy)). Qed.
Lemma members : map snd (policies cont) = added ++ sidecars.
Proof using R Hc Hk HC Hp Hnet CO Hn KF AF AB SC AP ND.
  apply all_added; auto. intros p H. apply in_app_or in H as [H|H].
  - apply (Permutation_in _ (Permutation_sym AP)) in H. apply in_app_or in H as [H|H]; [apply (kpol_layer p H)|rewrite (apol_kind p H); discriminate].
  - rewrite (proj1 (SC p H)). discriminate.
Qed.
Lemma in_istio : forall p, In p (layer_list cont LIstio) <-> In p apols \/ In p sidecars.
Proof using R Hc Hk HC Hp Hnet CO Hn KF AF AB SC AP ND.
  intros p. destruct (C27_invariants (added ++ sidecars)) as (_ & _ & _ & X & _). rewrite X, members, in_app_iff. split.
  - intros [[H|H] E]; [|auto]. apply (Permutation_in _ (Permutation_sym AP)) in H. apply in_app_or in H as [H|H]; auto.
    destruct (kpol_layer p H) as [H' _]. congruence.
  - intros [H|H].
    + split; [left; apply (Permutation_in _ AP), in_or_app; auto|]. rewrite (apol_kind p H). reflexivity.
    + split; auto. rewrite (proj1 (SC p H)). reflexivity.
Qed.
Lemma k8s_perm : Permutation kpols (layer_list cont LK8sCalico).
Proof using R Hc Hk HC Hp Hnet CO Hn KF AF AB SC AP ND.
  pose proof (C22_layer_holds_its_policies (added ++ sidecars) LK8sCalico) as P. cbv zeta in P. rewrite members in P. apply Permutation_sym. refine (Permutation_trans P _).
  rewrite filter_app.
  assert (PF : forall l l' : list policy, Permutation l l' -> Permutation (filter (of_layer LK8sCalico) l) (filter (of_layer LK8sCalico) l') ).
  { clear. intros l l' P. induction P; cbn [filter]; [constructor|destruct (of_layer _ x); auto|destruct (of_layer _ x), (of_layer _ y); auto; constructor|eapply perm_trans; eauto]. }
  assert (E0 : forall l : list policy, (forall p, In p l -> of_layer LK8sCalico p = false) -> filter (of_layer LK8sCalico) l = []).
  { clear. induction l as [|p l IH]; intros H; auto. cbn [filter]. rewrite (H p (or_introl eq_refl)). apply IH. intros q Hq. apply H. right. auto. }
  assert (E1 : forall l : list policy, (forall p, In p l -> of_layer LK8sCalico p = true) -> filter (of_layer LK8sCalico) l = l).
  { clear. induction l as [|p l IH]; intros H; auto. cbn [filter]. rewrite (H p (or_introl eq_refl)). f_equal. apply IH. intros q Hq. apply H. right. auto. }
  rewrite (E0 sidecars), app_nil_r by (intros p H; unfold of_layer; rewrite (proj1 (SC p H)); reflexivity).
  refine (Permutation_trans (PF _ _ (Permutation_sym AP)) _). rewrite filter_app, (E0 apols), app_nil_r, (E1 kpols); [apply Permutation_refl| |].
  - intros p H. unfold of_layer. rewrite (proj1 (kpol_layer p H)). reflexivity.
  - intros p H. unfold of_layer. rewrite (apol_kind p H). reflexivity.
Qed.
Lemma istio_exact : exact_policies std_dom std_rest reg (layer_list cont LIstio) /\ istio_list (layer_list cont LIstio) /\
  (forall p, In p (layer_list cont LIstio) -> confined std_dom reg (cl_peers cl) p).
Proof using R Hc Hk HC Hp Hnet CO Hn KF AF AB SC AP ND.
  assert (X : forall p, In p (layer_list cont LIstio) -> policy_wf std_dom std_rest reg p /\ confined std_dom reg (cl_peers cl) p /\ (p_kind p = TIstioAP /\ (p_action p = Allow \/ p_action p = Deny) \/ p_kind p = TSidecar)).
  { intros p H. apply in_istio in H as [H|H].
    - destruct (ap_of p H) as (y & Hy & E). destruct (ap_spec y p E (AB y Hy)) as (H1 & H2 & H3 & (n & s & sp & _ & H4) & _). split; auto. split; auto. left. split; auto. tauto.
    - destruct (SC p H) as (H1 & H2 & H3). auto. }
  split; [|split].
  - split; [intros p H; apply (X p H)|]. left. intros p H IC. destruct (X p H) as (_ & _ & [[E _]|E]); unfold is_calico in IC; rewrite E in IC; destruct IC as [IC|[IC|IC]]; discriminate.
  - split; [intros p H; apply (X p H)|]. apply sidecars_after; [|intros p H; apply (SC p H)]. intros p H. apply (Permutation_in _ (Permutation_sym AP)) in H.
    apply in_app_or in H as [H|H]; [|rewrite (apol_kind p H); discriminate]. destruct (kpol_layer p H) as [E _]. intros E'. rewrite E' in E. discriminate.
  - intros p H. apply (X p H).
Qed.
(** The authorization policies of the layer are those of the documents. *)
Lemma ap_matches_iff : forall a pt h w, space pt -> words_at code pt h w ->
  (ap_matches reg (layer_list cont LIstio) a pt <-> exists y, In y adocs /\ ap_action y a /\ ap_selects cl y (to pt) /\ ap_entry_matches y pt h w).
Proof using R Hc Hk HC Hp Hnet CO Hn KF AF AB SC AP ND.
  intros a pt h w Sp Hw. unfold ap_matches. split.
  - intros (p & H & Ek & Ea & _ & M). apply in_istio in H as [H|H]; [|rewrite (proj1 (SC p H)) in Ek; discriminate].
    destruct (ap_of p H) as (y & Hy & E). exists y. destruct (C53_action y p E (AB y Hy)) as [_ Ha]. split; auto. split; [apply Ha; auto|].
    apply (C53_rules_match y p E (AB y Hy) pt h w Sp Hw) in M. exact M.
  - intros (y & Hy & Ha & S & M). destruct (ap_in y Hy) as (p & H & E). exists p. split; [apply in_istio; auto|]. split; [apply (apol_kind p H)|].
    split; [apply (C53_action y p E (AB y Hy)); auto|]. split; [apply (C53_selected_workloads y p E (AB y Hy)); auto|].
    apply (C53_rules_match y p E (AB y Hy) pt h w Sp Hw). auto.
Qed.
Lemma ap_restricts_iff : forall x, ap_restricts (layer_list cont LIstio) x <-> exists y, In y adocs /\ ap_action y Allow /\ ap_selects cl y x.
Proof using R Hc Hk HC Hp Hnet CO Hn KF AF AB SC AP ND.
  intros x. unfold ap_restricts. split.
  - intros (p & H & Ek & Ea & S). apply in_istio in H as [H|H]; [|rewrite (proj1 (SC p H)) in Ek; discriminate].
    destruct (ap_of p H) as (y & Hy & E). exists y. destruct (C53_action y p E (AB y Hy)) as [_ Ha]. split; auto. split; [apply Ha; auto|].
    apply (C53_selected_workloads y p E (AB y Hy)). auto.
  - intros (y & Hy & Ha & S). destruct (ap_in y Hy) as (p & H & E). exists p. split; [apply in_istio; auto|]. split; [apply (apol_kind p H)|].
    split; [apply (C53_action y p E (AB y Hy)); auto|]. apply (C53_selected_workloads y p E (AB y Hy)); auto.
Qed.
Lemma sidecars_iff : forall pt x, (sidecar_matches reg (layer_list cont LIstio) pt <-> sidecar_matches reg sidecars pt) /\
  (sidecar_restricts (layer_list cont LIstio) x <-> sidecar_restricts sidecars x).
Proof using R Hc Hk HC Hp Hnet CO Hn KF AF AB SC AP ND.
  intros pt x. assert (X : forall p, In p (layer_list cont LIstio) /\ p_kind p = TSidecar <-> In p sidecars /\ p_kind p = TSidecar).
  { intros p. rewrite in_istio. split; [|tauto]. intros [[H|H] E]; auto. rewrite (apol_kind p H) in E. discriminate. }
  unfold sidecar_matches, sidecar_restricts. split; split; intros (p & H & E & H'); exists p; [pose proof (proj1 (X p) (conj H E))|pose proof (proj2 (X p) (conj H E))|pose proof (proj1 (X p) (conj H E))|pose proof (proj2 (X p) (conj H E))]; tauto.
Qed.
(** The Istio layer of the configuration. *)
Definition endpoint (x : point) : Prop := pod_or_ip (cl_peers cl) x /\ ~ named_dns x.
Lemma istio_layer_iff : forall pt h w, space pt -> words_at code pt h w -> endpoint (from pt) -> endpoint (to pt) -> ~ (is_addr (from pt) /\ is_addr (to pt)) ->
  (pt @ all_allowed (layer_conns A LIstio (cl_peers cl) (layer_list cont LIstio) only_all_allowed) <-> istio_allows adocs sidecars pt h w).
Proof using R Hc Hk HC Hp Hnet CO Hn KF AF AB SC AP ND.
  intros pt h w Sp Hw [F1 F2] [T1 T2] NI. destruct istio_exact as (X1 & X2 & X3). unfold istio_allows. destruct (sidecars_iff pt (from pt)) as [S1 S2].
  assert (T : a_tcp pt = true <-> pt 2 = 6%Z) by (unfold a_tcp; rewrite Z.eqb_eq; reflexivity).
  destruct (a_tcp pt) eqn:Et.
  - assert (T6 : pt 2 = 6%Z) by (apply T; auto). assert (NA : is_addr (to pt) -> member (cl_peers cl) (to pt) -> False) by (clear; destruct (to pt); cbn; tauto).
    assert (NB : is_addr (from pt) -> member (cl_peers cl) (from pt) -> False) by (clear; destruct (from pt); cbn; tauto).
    destruct T1 as [T1|T1].
    + assert (Q1 : is_addr (from pt) \/ member (cl_peers cl) (from pt) /\ ~ named_dns (from pt)) by (unfold pod_or_ip in F1; tauto).
      refine (iff_trans (C25_istio_tcp std_dom std_rest reg reg std_peers [Ivl 0 255] K (cl_peers cl) HC _ only_all_allowed X1 X2 X3 eq_refl pt Sp Et Q1 (conj T1 T2)) _).
      rewrite S1, S2, !(ap_matches_iff _ pt h w Sp Hw), ap_restricts_iff.
      assert (Y : istio_into adocs pt h w <->
        ~ (exists y, In y adocs /\ ap_action y Deny /\ ap_selects cl y (to pt) /\ ap_entry_matches y pt h w) /\
        ((exists y, In y adocs /\ ap_action y Allow /\ ap_selects cl y (to pt) /\ ap_entry_matches y pt h w) \/
          ~ exists y, In y adocs /\ ap_action y Allow /\ ap_selects cl y (to pt))).
      { unfold istio_into. split; intros [H1 H2]; split.
        - intros (y & G1 & G2 & G3 & G4). apply (H1 y G1 G2 G3 G4).
        - destruct H2 as [H2|H2]; auto. right. intros (y & G1 & G2 & G3). apply (H2 y G1 G2 G3).
        - intros y G1 G2 G3 G4. apply H1. exists y. auto.
        - destruct H2 as [H2|H2]; auto. right. intros y G1 G2 G3. apply H2. exists y. auto. }
      rewrite <- Y. clear - T6 T1 NA. tauto.
    + assert (Q1 : member (cl_peers cl) (from pt) /\ ~ named_dns (from pt)) by (unfold pod_or_ip in F1; tauto).
      refine (iff_trans (C25_istio_tcp_to_address std_dom std_rest reg reg std_peers [Ivl 0 255] K (cl_peers cl) HC _ only_all_allowed X1 X2 X3 eq_refl pt Sp Et Q1 T1) _).
      rewrite S1, S2. clear - T6 T1 NB Q1. tauto.
  - split; [intros _ H; apply T in H; discriminate|]. intros _.
    apply (C25_non_tcp_unrestricted std_dom std_rest reg reg std_peers [Ivl 0 255] K (cl_peers cl) HC _ only_all_allowed X1 eq_refl pt Sp Et); unfold pod_or_ip in *; tauto.
Qed.

(** The K8s/Calico documents, and whatever the Istio layer says. *)
Lemma documents_and_layer :
  exists sorted, Permutation kdocs sorted /\
    (forall i j d e o o', i <= j -> nth_error sorted i = Some d -> nth_error sorted j = Some e -> doc_order d o -> doc_order e o' -> rank_le o o') /\
    (no_pass_docs kdocs \/ docs_not_shadowed reg cl net profiles sorted ->
     forall pt (Q : Prop), space pt -> pod_or_ip (cl_peers cl) (from pt) -> pod_or_ip (cl_peers cl) (to pt) ->
     ~ (is_addr (from pt) /\ is_addr (to pt)) -> ~ named_dns (from pt) -> (is_addr (from pt) -> ~ named_dns (to pt)) ->
     (pt @ all_allowed (layer_conns A LIstio (cl_peers cl) (layer_list cont LIstio) only_all_allowed) <-> Q) ->
     ((forall y, ~ In y adocs) -> (forall p, ~ In p sidecars) -> Q) ->
     (pt @ all_allowed (config_conns A (cl_peers cl) (lays cont) only_all_allowed) <->
      doc_side reg cl net profiles sorted true pt /\ doc_side reg cl net profiles sorted false pt /\ Q)).
Proof using R Hc Hk HC Hp Hnet CO Hn Hempty KF KB AF AB SC AP ND.
  set (l := layer_list cont LK8sCalico).
  assert (S : exists sorted, Permutation kdocs sorted /\ Forall2 (fun d p => parse_doc reg cl net profiles d = Some (Some p)) sorted l).
  { assert (F' : Forall2 (fun p d => parse_doc reg cl net profiles d = Some (Some p)) kpols kdocs) by (clear - KF; induction KF; constructor; auto).
    destruct (Permutation_Forall2 k8s_perm F') as (sd & P1 & F1). exists sd. split; auto. unfold l. clear - F1. induction F1; constructor; auto. }
  destruct S as (sorted & P1 & F1). exists sorted. split; auto.
  assert (B1 : forall d, In d sorted -> doc_benign reg cl net profiles d) by (intros d H; apply KB; apply (Permutation_in d (Permutation_sym P1)); auto). split.
  - intros i j d e o o' Hij Hi Hj Ho Ho'.
    assert (NT : forall k x, nth_error sorted k = Some x -> exists q, nth_error l k = Some q /\ parse_doc reg cl net profiles x = Some (Some q)).
    { clear - F1. intros k x H. revert k H. induction F1 as [|x' q xs qs E F IH]; intros [|k] H; cbn in H; try discriminate; [injection H as <-; exists q; split; auto; reflexivity|].
      destruct (IH k H) as (q' & H1 & H2). exists q'. auto. }
    destruct (NT i d Hi) as (p & Np & Ep). destruct (NT j e Hj) as (q & Nq & Eq).
    apply (doc_rank reg cl net profiles d p o Ep) in Ho. apply (doc_rank reg cl net profiles e q o' Eq) in Ho'. subst o o'.
    exact (C22_sorted_by_order (added ++ sidecars) i j p q Hij Np Nq).
  - intros HX pt Q Sp Hf1 Ht1 NI Hf2 Ht2 M2 M3. destruct istio_exact as (X1 & X2 & X3).
    assert (HX' : no_pass_docs sorted \/ docs_not_shadowed reg cl net profiles sorted).
    { destruct HX as [HX|HX]; auto. left. intros y Hy. apply HX. apply (Permutation_in _ (Permutation_sym P1)). auto. }
    pose proof (docs_exact_policies reg R cl Hc Hk HC Hp net Hnet profiles Hempty sorted l F1 B1 HX') as XK.
    assert (LG : forall n q, lget (lays cont) n = Some q -> q = layer_list cont n) by (intros n q H; unfold layer_list; rewrite H; reflexivity).
    assert (LN : forall n q, In (n, q) (lays cont) -> q = layer_list cont n /\ (n = LK8sCalico \/ n = LIstio)).
    { intros n q H. apply lays_lget in H. pose proof (LG n q H) as E. split; auto. destruct q as [|p q].
      - left. apply (inv_empty _ (inv_add_all (added ++ sidecars) _ inv_init) n H).
      - assert (Hin : In p (layer_list cont n)) by (rewrite <- E; left; auto).
        destruct (C27_invariants (added ++ sidecars)) as (_ & _ & _ & X & _). apply X in Hin as [Hin En]. rewrite members in Hin. apply in_app_or in Hin as [Hin|Hin].
        + apply (Permutation_in _ (Permutation_sym AP)) in Hin. apply in_app_or in Hin as [Hin|Hin].
          * destruct (kpol_layer p Hin) as [E' _]. left. congruence.
          * rewrite (apol_kind p Hin) in En. cbn in En. right. congruence.
        + rewrite (proj1 (SC p Hin)) in En. cbn in En. right. congruence. }
    assert (LE : layers_exact std_dom std_rest reg (lays cont)).
    { intros n q H. destruct (LN n q H) as [-> [-> | ->]]; [exact XK|exact X1]. }
    refine (iff_trans (C26_all_allowed_is_the_intersection std_dom std_rest reg reg std_peers [Ivl 0 255] K (cl_peers cl) HC _ LE pt Sp Hf1 Ht1) _).
    pose proof (C52_allowed_connections reg R cl Hc Hk HC Hp net Hnet profiles Hempty sorted l F1 B1 HX' only_all_allowed eq_refl pt Sp Hf1 Ht1) as M1.
    fold A in M1.
    assert (LK : lget (lays cont) LK8sCalico = None -> l = []) by (intros H; unfold l, layer_list; rewrite H; reflexivity).
    assert (LI : lget (lays cont) LIstio = None -> layer_list cont LIstio = []) by (intros H; unfold layer_list; rewrite H; reflexivity).
    split.
    + intros [G1 G2].
      assert (Q1 : doc_side reg cl net profiles sorted true pt /\ doc_side reg cl net profiles sorted false pt).
      { destruct (lget (lays cont) LK8sCalico) as [q|] eqn:Eq.
        - apply M1. pose proof (LG _ _ Eq) as ->. apply lays_lget in Eq. exact (G1 _ _ Eq).
        - specialize (LK eq_refl). assert (Es : sorted = []) by (rewrite LK in F1; inversion F1; auto).
          assert (HD : forall x, named_hep x \/ ~ named_hep x). { intros [k n|z]; cbn; [destruct (Nat.eq_dec k 1); auto|tauto]. }
          assert (Z : member (cl_peers cl) (to pt) /\ named_hep (to pt) \/ member (cl_peers cl) (from pt) /\ named_hep (from pt) -> doc_side reg cl net profiles sorted true pt /\ doc_side reg cl net profiles sorted false pt).
          { intros H. apply M1. rewrite LK. apply G2; auto. destruct H as [H|H]; [exists (to pt)|exists (from pt)]; exact H. }
          assert (U : forall x, is_addr x -> named_hep x -> False) by (clear; intros [k n|z]; cbn; tauto).
          destruct (HD (to pt)) as [Dt|Dt].
          { apply Z. left. split; auto. destruct Ht1 as [Ht1|Ht1]; auto. exfalso. eauto. }
          destruct (HD (from pt)) as [Df|Df].
          { apply Z. right. split; auto. destruct Hf1 as [Hf1|Hf1]; auto. exfalso. eauto. }
          rewrite Es. unfold doc_side, near, far. cbv zeta.
          assert (V : forall x : point, forall d : document, In d [] -> ~ doc_applies cl profiles d true x) by (intros x d []).
          unfold pod_or_ip in Hf1, Ht1. split; [destruct Ht1 as [Ht1|Ht1]|destruct Hf1 as [Hf1|Hf1]].
          + right. right. auto.
          + left. split; auto. tauto.
          + right. right. auto.
          + left. split; auto. tauto. }
      destruct Q1 as [Q1 Q2]. split; auto. split; auto. destruct (lget (lays cont) LIstio) as [q|] eqn:Eq.
      * apply M2. pose proof (LG _ _ Eq) as ->. apply lays_lget in Eq. exact (G1 _ _ Eq).
      * assert (Z : forall p, In p apols \/ In p sidecars -> False) by (intros p H; apply in_istio in H; rewrite (LI eq_refl) in H; destruct H).
        apply M3; [intros y Hy; destruct (ap_in y Hy) as (p & Hi & _); apply (Z p); auto|intros p Hi; apply (Z p); auto].
    + intros (Q1 & Q2 & Q3). split.
      * intros n q Hq. destruct (LN n q Hq) as [-> [-> | ->]]; [apply M1; auto|apply M2; auto].
      * intros _ H. rewrite <- (LK H). apply M1. auto.
Qed.
Theorem C54_documents_of_all_layers :
  exists sorted, Permutation kdocs sorted /\
    (forall i j d e o o', i <= j -> nth_error sorted i = Some d -> nth_error sorted j = Some e -> doc_order d o -> doc_order e o' -> rank_le o o') /\
    (no_pass_docs kdocs \/ docs_not_shadowed reg cl net profiles sorted ->
     forall pt h w, space pt -> words_at code pt h w -> endpoint (from pt) -> endpoint (to pt) -> ~ (is_addr (from pt) /\ is_addr (to pt)) ->
     (pt @ all_allowed (config_conns A (cl_peers cl) (lays cont) only_all_allowed) <->
      doc_side reg cl net profiles sorted true pt /\ doc_side reg cl net profiles sorted false pt /\ istio_allows adocs sidecars pt h w)).
Proof using R Hc Hk HC Hp Hnet CO Hn Hempty KF KB AF AB SC AP ND.
  destruct documents_and_layer as (sorted & P1 & O1 & M). exists sorted. split; auto. split; auto.
  intros HX pt h w Sp Hw Hf Ht NI. apply (M HX pt _ Sp (proj1 Hf) (proj1 Ht) NI (proj2 Hf) (fun _ => proj2 Ht) (istio_layer_iff pt h w Sp Hw Hf Ht NI)).
  intros Z1 Z2 _. split.
  - right. split; [intros y Hy; destruct (Z1 y Hy)|right; intros y Hy; destruct (Z1 y Hy)].
  - right. right. intros (p & Hi & _). apply (Z2 p). auto.
Qed.
End Set_of_docs.
End Meaning.
Print Assumptions C53_selected_workloads.
Print Assumptions C53_action.
Print Assumptions C53_rules_match.
Print Assumptions C53_allowed_and_denied.
Print Assumptions C54_documents_of_all_layers.
