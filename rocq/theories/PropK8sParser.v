(** * C38, C48, C49: Kubernetes NetworkPolicy documents, from the decoded YAML to the allowed connections.

    What a port, peer or rule entry means ([port_matches], [peer_matches], [rule_matches]) is in K8sParserFacts.v, what a
    label selector means ([sat_sel]) in SelectorFacts.v; none of them refers to the parser. *)
From Coq Require Import ZArith List Bool Arith Lia String.
From Verif Require Import IntervalModel IntervalFacts HyperModel HyperFacts HyperOps HyperDims HyperTop HyperInst
                          PropHyperCube ConnModel ConnFacts TextModel PortProtoModel PeerModel PeerFacts PeerSetFacts
                          PolicyModel PolicyLaws PolicyFacts LayerFacts ConnAlg StdDims PropLayers YamlModel ClusterModel K8sParserModel SelectorFacts
                          ConnDict PropSelectors K8sParserFacts.
From Verif Require SemDiff.
Import ListNotations.
Local Open Scope string_scope.
Local Open Scope list_scope.
Local Open Scope nat_scope.
Local Opaque min_pod_index max_pod_index min_ipv6_index max_ipv6_index max_ipv4_index v4max v6min v6max.

(** ** The parts of a document *)
Definition doc_spec (y : yaml) (sp : list (string * yaml)) : Prop := exists m, y = YMap m /\ yget m "spec" = YMap sp.
Definition doc_ns (y : yaml) (ns : string) : Prop :=
  exists m md, y = YMap m /\ yget m "metadata" = YMap md /\
    (assoc_s "namespace" md = Some (YStr ns) \/ assoc_s "namespace" md = None /\ ns = "default").
Definition rules_in (sp : list (string * yaml)) (ing : bool) : list yaml := ylist (yget sp (if ing then "ingress" else "egress")).
(** Which directions a policy is about: policyTypes, or by default ingress, and egress if there are egress rules. *)
Definition about (sp : list (string * yaml)) (ing : bool) : Prop :=
  let types := ylist (yget sp "policyTypes") in
  if ing then types = [] \/ In (YStr "Ingress") types
  else In (YStr "Egress") types \/ types = [] /\ rules_in sp false <> [].
(** The document applies to the pod, in this direction. *)
Definition applies_to (cl : cluster) (y : yaml) (ing : bool) (x : point) : Prop :=
  exists sp ns q k i, doc_spec y sp /\ doc_ns y ns /\ about sp ing /\
    q = Named k i /\ x = PN k i /\ In q (cl_peers cl) /\ cl_ns cl q = Some ns /\ sat_sel (pod_has cl q) (yget sp "podSelector").
(** One of its rules matches: other side [x], destination [d], protocol and destination port. *)
Definition doc_allows (cl : cluster) (net : yaml -> option cidr) (y : yaml) (ing : bool) (x d : point) (pr n : Z) : Prop :=
  exists sp ns r, doc_spec y sp /\ doc_ns y ns /\ In r (rules_in sp ing) /\ rule_matches cl net ns ing r x d pr n.
(** Documents outside the findings: no empty egress section without policyTypes (F47), and F43-F45. *)
Definition benign_flags (y : yaml) : Prop :=
  forall sp, doc_spec y sp -> ylist (yget sp "policyTypes") = [] -> assoc_s "egress" sp <> None -> rules_in sp false <> [].
Definition benign (cl : cluster) (y : yaml) : Prop :=
  benign_flags y /\ forall sp ing r, doc_spec y sp -> In r (rules_in sp ing) -> benign_rule cl ing r.

(** ** C38: ports *)
Theorem C38_port_meaning : forall y pr0 ps, parse_port y = Some (pr0, ps) ->
  forall named x pr n, (1 <= n <= 65535)%Z -> (port_matches named y x pr n <-> pr = pr0 /\ dport_in named (eq pr0) x ps n).
Proof. intros y pr0 ps E. apply (port_spec y pr0 ps E). Qed.
(** A port entry as the Kubernetes API defines it. *)
Definition legal_protocol (p : yaml) : Prop := p = YStr "TCP" \/ p = YStr "UDP" \/ p = YStr "SCTP".
Theorem C38_legal_ports_accepted : forall p a b s, legal_protocol p -> (1 <= a <= b)%Z -> (b <= 65535)%Z -> port_name_ok s = true ->
  parse_port (YMap [("protocol", p)]) <> None /\
  parse_port (YMap [("protocol", p); ("port", YInt a)]) <> None /\
  parse_port (YMap [("protocol", p); ("port", YStr s)]) <> None /\
  parse_port (YMap [("protocol", p); ("port", YInt a); ("endPort", YInt b)]) <> None.
Proof.
  intros p a b s Hp Hab Hb Hs. assert (D : forall z, (1 <= z <= 65535)%Z -> port_in_domain z = true) by (intros z Hz; unfold port_in_domain; lia).
  assert (P : exists t k, p = YStr t /\ get_protocol_number (ProtoName (if String.eqb t "" then "TCP" else t)) = Some k /\
     (t = "TCP" \/ t = "UDP" \/ t = "SCTP")).
  { destruct proto_number as (N1 & N2 & N3). destruct Hp as [->|[->| ->]]; eexists; eexists; (split; [reflexivity|]); cbn [String.eqb]; eauto. }
  destruct P as (t & k & -> & Ek & Ht). unfold parse_port. set (fs := [Field "port" _ _ _; _; _]).
  assert (C : forall l, (l = [] \/ l = [("port", YInt a)] \/ l = [("port", YStr s)] \/ l = [("port", YInt a); ("endPort", YInt b)]) ->
     check_fields (YMap (("protocol", YStr t) :: l)) fs = Some (("protocol", YStr t) :: l)).
  { intros l Hl. destruct Ht as [->|[->| ->]], Hl as [->|[->|[->| ->]]]; vm_compute; reflexivity. }
  repeat apply conj; (rewrite C by tauto); cbn [bind]; unfold yget; cbn [assoc_s String.eqb Ascii.eqb Bool.eqb]; rewrite Ek;
    cbn [bind is_null negb andb ytrue].
  - discriminate.
  - cbn [yint]. rewrite D by lia. cbn [ps_add_port ps_new port_set]. rewrite add_one_interval by lia. discriminate.
  - rewrite Hs. discriminate.
  - cbn [yint]. rewrite !D by lia. replace (a <=? b)%Z with true by lia. unfold ps_add_range. cbn [ps_new port_set]. rewrite add_one_interval by lia. discriminate.
Qed.
(** Illegal entries are rejected: out-of-range numbers, empty ranges, a range that starts at a named port, and an end
    without a start. *)
Theorem C38_illegal_ports_rejected : forall m,
  (forall a, yint (yget m "port") = Some a -> ~ (1 <= a <= 65535)%Z -> parse_port (YMap m) = None) /\
  (forall a b, yint (yget m "port") = Some a -> yint (yget m "endPort") = Some b -> (b < a)%Z \/ (65535 < b)%Z -> parse_port (YMap m) = None) /\
  (forall s b, yget m "port" = YStr s -> yint (yget m "endPort") = Some b -> parse_port (YMap m) = None) /\
  (forall b, yget m "port" = YNull -> yint (yget m "endPort") = Some b -> b <> 0%Z -> parse_port (YMap m) = None).
Proof.
  intros m. unfold parse_port. destruct (check_fields (YMap m) _) as [m'|] eqn:Ec; [|repeat split; reflexivity].
  apply check_fields_map in Ec as [Em _]. injection Em as <-. cbn [bind]. cbv zeta.
  destruct (get_protocol_number _) as [pr|]; [|repeat split; reflexivity]. cbn [bind]. unfold port_in_domain.
  set (port := yget m "port"). set (last := yget m "endPort"). clearbody port last.
  repeat apply conj.
  - intros a E H. assert (N : is_null port = false) by (destruct port; try discriminate; reflexivity). rewrite N. cbn [negb andb].
    assert (P : forall A (f : string -> option A) (g : option A), match port with YStr s => f s | _ => g end = g) by (destruct port; try discriminate; reflexivity).
    rewrite P, E. replace ((1 <=? a)%Z && (a <=? 65535)%Z) with false by lia. cbn [andb]. destruct (negb (is_null last)); [destruct (yint last)|]; reflexivity.
  - intros a b E1 E2 H. assert (N : is_null port = false) by (destruct port; try discriminate; reflexivity).
    assert (N' : is_null last = false) by (destruct last; try discriminate; reflexivity). rewrite N, N', E1, E2. cbn [negb andb].
    replace (((1 <=? a)%Z && (a <=? 65535)%Z && ((1 <=? b)%Z && (b <=? 65535)%Z) && (a <=? b)%Z)) with false by lia. reflexivity.
  - intros s b -> E. assert (N' : is_null last = false) by (destruct last; try discriminate; reflexivity). rewrite N'. reflexivity.
  - intros b -> E H. cbn [is_null negb andb]. destruct last as [| [|] |n| | | |]; try discriminate; cbn in E.
    + reflexivity.
    + injection E as <-. congruence.
    + injection E as <-. cbn [ytrue]. replace (n =? 0)%Z with false by lia. reflexivity.
Qed.
(** An end of 0 without a start slips through (the test is on the truth value, K8sPolicyYamlParser.py:299). *)
Theorem C38_zero_end_refuted :
  ~ forall m b, yget m "port" = YNull -> yint (yget m "endPort") = Some b -> parse_port (YMap m) = None.
Proof. intros H. specialize (H [("endPort", YInt 0)] 0%Z eq_refl eq_refl). vm_compute in H. discriminate. Qed.

(** ** Documents *)
Section Docs.
Context (cl : cluster) (net : yaml -> option cidr) {C : Type} (A : cops C) (mkc : peerset -> peerset -> Z -> portset -> C).
Definition affects (sp : list (string * yaml)) (ing : bool) : bool :=
  let types := ylist (yget sp "policyTypes") in
  let given := match types with [] => false | _ => true end in
  if ing then negb given || existsb (among ["Ingress"]) types
  else (given && existsb (among ["Egress"]) types) || (negb given && match assoc_s "egress" sp with Some _ => true | None => false end).
Lemma parse_policy_inv : forall y p, parse_policy cl net A mkc y = Some (Some p) ->
  exists ns, doc_ns y ns /\ (forall ns', doc_ns y ns' -> ns' = ns) /\ p_kind p = TK8s /\
  ((p_selected p = [] /\ p_ingress p = [] /\ p_egress p = [] /\ p_affects_in p = false /\ p_affects_eg p = false /\ forall sp, ~ doc_spec y sp) \/
   exists sp, doc_spec y sp /\ (forall sp', doc_spec y sp' -> sp' = sp) /\
     p_affects_in p = affects sp true /\ p_affects_eg p = affects sp false /\
     (affects sp true = false -> yget sp "ingress" = YNull) /\ (affects sp false = false -> yget sp "egress" = YNull) /\
     has_type TyDict (yget sp "podSelector") = true /\
     meet (parse_label_selector cl ns false (yget sp "podSelector")) (Some (namespace_pods cl (Some ns))) = Some (p_selected p) /\
     mapM (parse_rule cl net A mkc ns true (p_selected p)) (rules_in sp true) = Some (p_ingress p) /\
     mapM (parse_rule cl net A mkc ns false (p_selected p)) (rules_in sp false) = Some (p_egress p)).
Proof.
  intros y p E. unfold parse_policy in E.
  match type of E with bind ?e _ = _ => destruct e as [o|] eqn:Eg; [|discriminate] end. cbn [bind] in E.
  destruct o as [[[m name] nsy]|]; [|discriminate].
  (* the generic part *)
  unfold parse_generic in Eg. destruct y as [| | | | | |m0]; try discriminate.
  destruct (negb (among ["NetworkPolicy"] (yget m0 "kind"))); [discriminate|].
  destruct (yget m0 "apiVersion") as [| | | |v| |]; try discriminate;
    [|destruct (existsb _ _); discriminate|destruct (existsb _ _); discriminate].
  destruct (negb _); [discriminate|]. destruct (check_fields (YMap m0) _) as [mm|] eqn:Ec; [|discriminate]. cbn [bind] in Eg.
  apply check_fields_map in Ec as [Em F]. injection Em as <-.
  destruct (check_fields (yget m0 "metadata") metadata_fields) as [md|] eqn:Ed; [|discriminate]. cbn [bind] in Eg.
  apply check_fields_map in Ed as [Ed _]. destruct (yget md "name") as [| | | |nm| |]; try discriminate. injection Eg as <- <- <-.
  cbv beta iota zeta in E.
  assert (NS : exists ns, match assoc_s "namespace" md with Some v0 => v0 | None => YStr "default" end = YStr ns).
  { destruct (match assoc_s "namespace" md with Some v0 => v0 | None => YStr "default" end); try discriminate. eauto. }
  destruct NS as [ns Ens]. rewrite Ens in E. exists ns.
  split. { exists m0, md. split; auto. split; auto. destruct (assoc_s "namespace" md); [left; congruence|right; split; congruence]. }
  split. { intros ns' (m1 & md1 & E1 & E2 & E3). injection E1 as <-. assert (md1 = md) by congruence. subst md1.
           destruct (assoc_s "namespace" md); destruct E3 as [E3|[E3 E4]]; congruence. }
  destruct (negb (dns_subdomain_ok nm && dns_label_ok ns)); [discriminate|].
  pose proof (typed _ _ _ _ _ (field_of _ _ _ F (or_intror (or_intror (or_intror (or_introl eq_refl)))))) as Ts.
  destruct Ts as [Es|Ts].
  - rewrite Es in E. injection E as <-. split; [reflexivity|]. left. do 5 (split; [reflexivity|]). intros sp (m1 & E1 & E2). injection E1 as <-. congruence.
  - destruct (yget m0 "spec") as [| | | | | |sp] eqn:Es; try discriminate.
    destruct (check_fields (YMap sp) _) as [sp'|] eqn:Ecs; [|discriminate]. cbn [bind] in E. apply check_fields_map in Ecs as [Esp Fs]. injection Esp as <-.
    cbv zeta in E. fold (affects sp true) in E. fold (affects sp false) in E.
    assert (Tp : has_type TyDict (yget sp "podSelector") = true).
    { pose proof (field_of _ _ _ Fs (or_introl eq_refl)) as F1. destruct (typed _ _ _ _ _ F1) as [H|H]; auto.
      unfold field_ok in F1. cbn [f_key f_usage f_type f_values] in F1. unfold yget in H. destruct (assoc_s "podSelector" sp) as [v0|]; [|discriminate]. subst v0. discriminate. }
    match type of E with (if ?b then _ else _) = _ => destruct b eqn:Ef; [discriminate|] end.
    match type of E with bind ?e _ = _ => destruct e as [sl|] eqn:Esl; [|discriminate] end. cbn [bind] in E.
    match type of E with bind ?e _ = _ => destruct e as [ins|] eqn:Ei; [|discriminate] end. cbn [bind] in E.
    match type of E with bind ?e _ = _ => destruct e as [egs|] eqn:Ee; [|discriminate] end. cbn [bind] in E.
    assert (p = Policy nm ns TK8s (affects sp true) (affects sp false) sl ins egs None Allow) by congruence. subst p. clear E.
    cbn [p_kind p_selected p_ingress p_egress p_affects_in p_affects_eg]. split; [reflexivity|]. right. exists sp.
    apply orb_false_iff in Ef as [Ef1 Ef2].
    split. { exists m0. auto. } split. { intros sp' (m1 & E1 & E2). injection E1 as <-. congruence. }
    split; [reflexivity|]. split; [reflexivity|].
    split. { intros H. rewrite H in Ef1. destruct (null_cases (yget sp "ingress")) as [[H1 H2]|[H1 H2]]; auto. rewrite H1 in Ef1. discriminate. }
    split. { intros H. rewrite H in Ef2. destruct (null_cases (yget sp "egress")) as [[H1 H2]|[H1 H2]]; auto. rewrite H1 in Ef2. discriminate. }
    split; auto.
Qed.
Lemma affects_about : forall sp ing, (ylist (yget sp "policyTypes") = [] -> assoc_s "egress" sp <> None -> rules_in sp false <> []) ->
  (affects sp ing = true <-> about sp ing).
Proof.
  intros sp ing B. unfold affects, about.
  assert (G : forall w l, existsb (among [w]) l = true <-> In (YStr w) l).
  { intros w l. rewrite existsb_exists. split.
    - intros (y & Hy & H). destruct y; try discriminate. apply smem_In in H. destruct H as [<-|[]]. auto.
    - intros H. exists (YStr w). split; auto. apply smem_In. left; auto. }
  destruct ing; destruct (ylist (yget sp "policyTypes")) as [|t l] eqn:Et.
  - cbn [negb orb]. tauto.
  - cbn [negb orb]. rewrite G. split; auto. intros [H|H]; [discriminate|auto].
  - cbn [negb andb orb]. split.
    + intros H. right. split; auto. apply B; auto. destruct (assoc_s "egress" sp); congruence.
    + intros [[]|[_ H]]. unfold rules_in, yget in H. destruct (assoc_s "egress" sp); [reflexivity|]. exfalso. apply H. reflexivity.
  - cbn [negb andb orb]. rewrite orb_false_r, G. split; auto. intros [H|[H _]]; [auto|discriminate].
Qed.
(** ** C38: policyTypes *)
Theorem C38_flags : forall y p sp, parse_policy cl net A mkc y = Some (Some p) -> doc_spec y sp -> benign_flags y ->
  (p_affects_in p = true <-> about sp true) /\ (p_affects_eg p = true <-> about sp false).
Proof.
  intros y p sp E D B. destruct (parse_policy_inv y p E) as (ns & _ & _ & _ & [(_ & _ & _ & _ & _ & N)|(sp' & D' & U & A1 & A2 & _)]); [destruct (N sp D)|].
  rewrite <- (U sp D) in *. rewrite A1, A2, !affects_about; auto using iff_refl.
Qed.
(** A document with rules for a direction it is not about is rejected. *)
Theorem C38_rules_outside_types_rejected : forall y sp ing p, doc_spec y sp -> ~ about sp ing -> yget sp (if ing then "ingress" else "egress") <> YNull ->
  parse_policy cl net A mkc y = Some (Some p) -> ing = false /\ ylist (yget sp "policyTypes") = [] /\ rules_in sp false = [].
Proof.
  intros y sp ing p D NA NN E. destruct (parse_policy_inv y p E) as (ns & _ & _ & _ & [(_ & _ & _ & _ & _ & N)|(sp' & D' & U & A1 & A2 & A3 & A4 & _)]); [destruct (N sp D)|].
  rewrite <- (U sp D) in *. clear U D' D E.
  assert (X : affects sp ing = true) by (destruct (affects sp ing) eqn:X; auto; destruct ing; [destruct (NN (A3 X))|destruct (NN (A4 X))]).
  destruct (ylist (yget sp "policyTypes")) eqn:Et.
  - destruct ing; [destruct NA; left; exact Et|]. split; auto. split; auto. destruct (rules_in sp false) eqn:Er; auto. destruct NA. right. split; [exact Et|congruence].
  - exfalso. apply NA. apply affects_about; auto. rewrite Et. discriminate.
Qed.
End Docs.

(** ** C48: what a parsed policy selects and allows *)
Section Meaning.
Context (reg : list peer) (R : reg_ok reg).
Context (cl : cluster) (Hc : cluster_ok cl) (HC : container reg (cl_peers cl)).
Context (Hp : forall p nm n pr, assoc_s nm (cl_ports cl p) = Some (n, pr) -> (1 <= n <= 65535)%Z).
Context (net : yaml -> option cidr) (Hnet : forall y c, net y = Some c -> cidr_ok c) (Hempty : net (YStr "") = None).
Let K := std_alg reg R.
Let A := cube_ops std_dom std_all reg.
Notation space := (a_space std_dom).
Notation from := (a_src reg).
Notation to := (a_dst reg).
Notation parse := (parse_policy cl net A (port_conns reg cl)).
(** The local side of a connection (the pod the policy applies to) and the other side. *)
Definition near (ing : bool) (pt : conn) : point := if ing then to pt else from pt.
Definition far (ing : bool) (pt : conn) : point := if ing then from pt else to pt.
Definition allows (y : yaml) (ing : bool) (pt : conn) : Prop := doc_allows cl net y ing (far ing pt) (to pt) (pt 2) (pt 4).

Lemma policy_spec : forall y p, parse y = Some (Some p) -> benign cl y ->
  p_kind p = TK8s /\ policy_wf std_dom std_rest reg p /\ confined std_dom reg (cl_peers cl) p /\
  (forall ing x, selects p ing x <-> applies_to cl y ing x) /\
  (forall ing pt, space pt -> selects p ing (near ing pt) -> (some_rule (rules_of p ing) pt <-> allows y ing pt)).
Proof using R Hc HC Hp Hnet Hempty.
  intros y p E [BF BR]. destruct (parse_policy_inv cl net A _ y p E) as (ns & N1 & N2 & Kd & [(S0 & I0 & E0 & F1 & F2 & N)|(sp & D & U & A1 & A2 & A3 & A4 & Ty & Sel & Ing & Eg)]).
  - split; auto. split; [|split; [|split]].
    + split; [rewrite I0, E0; intros r []|]. rewrite S0. split; [intros l []|intros k n []].
    + unfold confined. rewrite S0, I0, E0. split; [intros r pt _ []|]. split; [intros r pt _ []|]. intros [k n|z]; cbn [pt_in]; [intros []|intros (l & [] & _)].
    + intros ing x. unfold selects. rewrite Kd, F1, F2. split.
      * intros [_ H]. destruct ing; discriminate.
      * intros (sp & _ & _ & _ & _ & D & _). destruct (N sp D).
    + intros ing pt _ [_ H]. rewrite Kd, F1, F2 in H. destruct ing; discriminate.
  - destruct (C19_policy_pod_selector cl ns _ _ Hc Ty Sel) as [Pl Ms].
    assert (Psel : pok reg (p_selected p)) by (apply (plain_pok cl reg HC); auto; intros q Hq; apply Ms in Hq; tauto).
    assert (RS : forall ing r, In r (rules_of p ing) -> exists yr, In yr (rules_in sp ing) /\ parse_rule cl net A (port_conns reg cl) ns ing (p_selected p) yr = Some r).
    { intros ing r Hr. unfold rules_of in Hr. destruct ing; [apply (mapM_In _ _ _ Ing) in Hr|apply (mapM_In _ _ _ Eg) in Hr]; exact Hr. }
    assert (RR : forall ing yr, In yr (rules_in sp ing) -> exists r, parse_rule cl net A (port_conns reg cl) ns ing (p_selected p) yr = Some r /\ In r (rules_of p ing)).
    { assert (G : forall X Y (f : X -> option Y) l s, mapM f l = Some s -> forall x, In x l -> exists z, f x = Some z /\ In z s).
      { intros X Y f. induction l as [|a l IH]; intros s Es x Hx; [destruct Hx|]. cbn [mapM] in Es. destruct (f a) as [b|] eqn:Eb; [|discriminate].
        destruct (mapM f l) as [bs|] eqn:El; [|discriminate]. injection Es as <-. destruct Hx as [<-|Hx]; [exists b; split; [auto|left; auto]|].
        destruct (IH bs eq_refl x Hx) as (z & Z1 & Z2). exists z. split; [auto|right; auto]. }
      intros ing yr Hyr. unfold rules_of. destruct ing; [apply (G _ _ _ _ _ Ing yr Hyr)|apply (G _ _ _ _ _ Eg yr Hyr)]. }
    assert (SP : forall ing yr r, In yr (rules_in sp ing) -> parse_rule cl net A (port_conns reg cl) ns ing (p_selected p) yr = Some r ->
      a_ok std_dom std_rest (r_props r) /\ regular_conns (r_props r) /\ forall pt, space pt -> (pt @ r_props r <->
        pt_in (near ing pt) (p_selected p) /\ rule_matches cl net ns ing yr (far ing pt) (to pt) (pt 2) (pt 4))).
    { intros ing yr r Hy Er. destruct (rule_spec reg R cl Hc HC Hp net Hnet Hempty ns ing (p_selected p) yr r Psel Er (BR sp ing yr D Hy)) as (_ & X). exact X. }
    assert (AB : forall ing, affects sp ing = true <-> about sp ing) by (intros ing; apply affects_about; apply BF; auto).
    split; auto. split; [|split; [|split]].
    + apply policy_wf_regular; auto. intros r Hr. assert (X : exists ing, In r (rules_of p ing)) by (apply in_app_or in Hr as [Hr|Hr]; [exists true|exists false]; auto).
      destruct X as (ing & Hi). destruct (RS ing r Hi) as (yr & Hy & Er). destruct (SP ing yr r Hy Er) as (O1 & O2 & _). split; [exact O1|].
      destruct O2 as [O2|O2]; [right; exact O2|left; exact O2].
    + assert (CF : forall ing r pt, space pt -> In r (rules_of p ing) -> pt @ r_props r -> pt_in (near ing pt) (p_selected p)).
      { intros ing r pt Sp Hr M. destruct (RS ing r Hr) as (yr & Hy & Er). destruct (SP ing yr r Hy Er) as (_ & _ & X). apply (X pt Sp) in M. tauto. }
      split; [|split].
      * intros r pt Sp Hr M. exact (CF true r pt Sp Hr M).
      * intros r pt Sp Hr M. exact (CF false r pt Sp Hr M).
      * intros [k n|z] Hx; cbn [pt_in member] in *; [apply Ms in Hx; tauto|]. destruct Hx as (l & Hl & _). apply Pl in Hl. discriminate.
    + intros ing x. unfold selects. rewrite Kd. rewrite (plain_pt (p_selected p) x Pl).
      assert (FL : (if ing then p_affects_in p = true else p_affects_eg p = true) <-> about sp ing) by (rewrite A1, A2, <- !AB; destruct ing; tauto).
      rewrite FL. split.
      * intros ((q & Hq & k & i & -> & ->) & H). apply Ms in Hq as (Q1 & Q2 & Q3). exists sp, ns, (Named k i), k, i. auto 10.
      * intros (sp' & ns' & q & k & i & D' & N' & H & -> & -> & Q1 & Q2 & Q3). rewrite (U sp' D') in *. rewrite (N2 ns' N') in *.
        split; auto. exists (Named k i). split; [apply Ms; auto|]. eauto.
    + intros ing pt Sp [Hs _]. unfold some_rule, allows, doc_allows. split.
      * intros (r & Hr & M). destruct (RS ing r Hr) as (yr & Hy & Er). destruct (SP ing yr r Hy Er) as (_ & _ & X). destruct (proj1 (X pt Sp) M) as [_ M'].
        exists sp, ns, yr. auto.
      * intros (sp' & ns' & yr & D' & N' & Hy & M). rewrite (U sp' D') in *. rewrite (N2 ns' N') in *. destruct (RR ing yr Hy) as (r & Er & Hr).
        destruct (SP ing yr r Hy Er) as (_ & _ & X). exists r. split; auto. apply (X pt Sp). auto.
Qed.
(** The policy selects exactly the pods the document applies to, per direction. *)
Theorem C48_selected_pods : forall y p, parse y = Some (Some p) -> benign cl y -> forall ing x, selects p ing x <-> applies_to cl y ing x.
Proof using R Hc HC Hp Hnet Hempty. intros y p E B. apply (policy_spec y p E B). Qed.
(** For a connection whose local side is such a pod, some rule of the policy matches iff some rule entry of the document
    does. *)
Theorem C48_matched_connections : forall y p, parse y = Some (Some p) -> benign cl y -> forall ing pt, space pt -> applies_to cl y ing (near ing pt) ->
  (some_rule (rules_of p ing) pt <-> allows y ing pt).
Proof using R Hc HC Hp Hnet Hempty.
  intros y p E B ing pt Sp H. destruct (policy_spec y p E B) as (_ & _ & _ & S & M). apply M; auto. apply S. auto.
Qed.

(** ** C49: a set of documents *)
(** Host endpoints are cluster-scoped: they have no namespace. *)
Definition host_endpoints_global : Prop := forall i, In (Named 1 i) (cl_peers cl) -> cl_ns cl (Named 1 i) = None.
(** One side of the connection: an IP address (talking to a pod); or a pod to which no document applies, or to which some
    document applies that matches the connection. *)
Definition side_open (docs : list yaml) (ing : bool) (pt : conn) : Prop :=
  (is_addr (near ing pt) /\ member (cl_peers cl) (far ing pt) /\ ~ named_dns (far ing pt)) \/
  (member (cl_peers cl) (near ing pt) /\ ~ named_hep (near ing pt) /\
   ((forall y, In y docs -> ~ applies_to cl y ing (near ing pt)) \/
    exists y, In y docs /\ applies_to cl y ing (near ing pt) /\ allows y ing pt)).
Lemma docs_exact : forall docs pols, Forall2 (fun y p => parse y = Some (Some p)) docs pols -> (forall y, In y docs -> benign cl y) ->
  exact_policies std_dom std_rest reg pols /\ (forall p, In p pols -> confined std_dom reg (cl_peers cl) p) /\ (forall p, In p pols -> p_kind p = TK8s).
Proof using R Hc HC Hp Hnet Hempty.
  intros docs pols F B.
  assert (G : forall p, In p pols -> exists y, In y docs /\ parse y = Some (Some p)).
  { clear B. induction F as [|y p ys ps E F IH]; intros q Hq; [destruct Hq|]. destruct Hq as [<-|Hq]; [exists y; split; [left; auto|auto]|].
    destruct (IH q Hq) as (z & Z1 & Z2). exists z. split; [right; auto|auto]. }
  split; [split|split].
  - intros p H. destruct (G p H) as (y & Hy & E). apply (policy_spec y p E (B y Hy)).
  - left. intros p H HK. exfalso. destruct (G p H) as (y & Hy & E). destruct (policy_spec y p E (B y Hy)) as (X & _). unfold is_calico in HK. rewrite X in HK. destruct HK as [HK|[HK|HK]]; discriminate.
  - intros p H. destruct (G p H) as (y & Hy & E). apply (policy_spec y p E (B y Hy)).
  - intros p H. destruct (G p H) as (y & Hy & E). apply (policy_spec y p E (B y Hy)).
Qed.
Lemma sides : host_endpoints_global -> forall docs pols, Forall2 (fun y p => parse y = Some (Some p)) docs pols -> (forall y, In y docs -> benign cl y) ->
  forall ing pt, space pt -> (side_allows reg (cl_peers cl) pols ing pt <-> side_open docs ing pt).
Proof using R Hc HC Hp Hnet Hempty.
  intros HG docs pols F B ing pt Sp.
  assert (G1 : forall p, In p pols -> exists y, In y docs /\ parse y = Some (Some p)).
  { clear B. induction F as [|y p ys ps E F IH]; intros q Hq; [destruct Hq|]. destruct Hq as [<-|Hq]; [exists y; split; [left; auto|auto]|].
    destruct (IH q Hq) as (z & Z1 & Z2). exists z. split; [right; auto|auto]. }
  assert (G2 : forall y, In y docs -> exists p, In p pols /\ parse y = Some (Some p)).
  { clear B G1. induction F as [|y p ys ps E F IH]; intros q Hq; [destruct Hq|]. destruct Hq as [<-|Hq]; [exists p; split; [left; auto|auto]|].
    destruct (IH q Hq) as (z & Z1 & Z2). exists z. split; [right; auto|auto]. }
  assert (Sel : selected_by pols ing (near ing pt) <-> exists y, In y docs /\ applies_to cl y ing (near ing pt)).
  { split.
    - intros (p & H & S). destruct (G1 p H) as (y & Hy & E). exists y. split; auto. apply (C48_selected_pods y p E (B y Hy)). auto.
    - intros (y & Hy & S). destruct (G2 y Hy) as (p & H & E). exists p. split; auto. apply (C48_selected_pods y p E (B y Hy)). auto. }
  assert (Op : forall p y, In y docs -> parse y = Some (Some p) -> forall a, opinion p ing pt a <-> a = Allow /\ some_rule (rules_of p ing) pt).
  { intros p y Hy E a. unfold opinion. destruct (policy_spec y p E (B y Hy)) as (-> & _). tauto. }
  assert (V : forall a, verdict reg pols ing pt a <-> a = Allow /\ exists y, In y docs /\ applies_to cl y ing (near ing pt) /\ allows y ing pt).
  { intros a. split.
    - intros (pre & p & post & E & S & O & _). assert (H : In p pols) by (rewrite E; apply in_or_app; right; left; auto). destruct (G1 p H) as (y & Hy & Ey).
      apply (Op p y Hy Ey) in O as [-> O]. split; auto. exists y. split; auto. assert (AP : applies_to cl y ing (near ing pt)) by (apply (C48_selected_pods y p Ey (B y Hy)); exact S).
      split; auto. apply (C48_matched_connections y p Ey (B y Hy) ing pt Sp AP). exact O.
    - intros (-> & y & Hy & AP & AL). destruct (G2 y Hy) as (p & H & Ey).
      assert (D : forall q, In q pols -> (exists b, selects q ing (near ing pt) /\ opinion q ing pt b) \/ (forall b, ~ (selects q ing (near ing pt) /\ opinion q ing pt b))).
      { intros q Hq. destruct (G1 q Hq) as (z & Hz & Ez). destruct (policy_spec z q Ez (B z Hz)) as (Kq & W & _).
        assert (DR : some_rule (rules_of q ing) pt \/ ~ some_rule (rules_of q ing) pt).
        { assert (WR : forall r, In r (rules_of q ing) -> a_ok std_dom std_rest (r_props r)) by (intros r Hr; refine (proj1 (proj1 W r _)); apply in_or_app; unfold rules_of in Hr; destruct ing; auto).
          pose proof (cube_laws std_dom std_rest reg reg std_peers [Ivl 0 255] K) as LW. unfold some_rule. induction (rules_of q ing) as [|r l IH]; [right; intros (r & [] & _)|].
          destruct (l_dec _ _ _ _ _ _ _ _ _ LW (r_props r) pt (WR r (or_introl eq_refl))) as [M|M]; [left; exists r; split; [left; auto|auto]|].
          destruct (IH (fun s Hs => WR s (or_intror Hs))) as [(s & Hs & Ms)|N]; [left; exists s; split; [right; auto|auto]|].
          right. intros (s & [<-|Hs] & Ms); eauto. }
        assert (DS : selects q ing (near ing pt) \/ ~ selects q ing (near ing pt)).
        { unfold selects. rewrite Kq. destruct (SemDiff.pt_in_dec (near ing pt) (p_selected q)) as [X|X]; [|tauto].
          destruct ing, (p_affects_in q), (p_affects_eg q); try tauto; right; intros [_ Y]; discriminate. }
        destruct DS as [DS|DS]; [|right; intros b [Hs _]; contradiction].
        destruct DR as [DR|DR]; [left; exists Allow; split; auto; apply (Op q z Hz Ez); auto|right; intros b [_ O]; apply (Op q z Hz Ez) in O as [_ O]; contradiction]. }
      destruct (silent_dec_iff _ pols D) as [(a & pre & q & post & E & [S O] & N)|Si].
      + assert (Hq : In q pols) by (rewrite E; apply in_or_app; right; left; auto). destruct (G1 q Hq) as (z & Hz & Ez).
        pose proof O as O'. apply (Op q z Hz Ez) in O' as [-> _]. exists pre, q, post. split; auto. split; auto. split; auto.
        intros q' b Hq' Sq' Oq'. apply (N q' b Hq'). split; auto.
      + exfalso. apply (Si p Allow H). split; [apply (C48_selected_pods y p Ey (B y Hy)); auto|]. apply (Op p y Hy Ey). split; auto.
        apply (C48_matched_connections y p Ey (B y Hy) ing pt Sp AP). exact AL. }
  assert (HX : forall y, applies_to cl y ing (near ing pt) -> exists k i, near ing pt = PN k i /\ In (Named k i) (cl_peers cl) /\ cl_ns cl (Named k i) <> None).
  { intros y (sp & ns & q & k & i & _ & _ & _ & -> & E1 & E2 & E3 & _). exists k, i. split; auto. split; auto. rewrite E3. discriminate. }
  unfold side_allows. fold (near ing pt) (far ing pt). cbv zeta. fold (near ing pt). rewrite Sel, !V. unfold side_open.
  assert (NP : ~ (Pass = Allow /\ exists y, In y docs /\ applies_to cl y ing (near ing pt) /\ allows y ing pt)) by (intros [X _]; discriminate).
  split.
  - intros [X|[(X1 & X2 & X3)|(X1 & X2 & [X3|[X3|X3]])]]; [left; exact X| | | |contradiction].
    + exfalso. destruct X3 as (_ & y & _ & AP & _). destruct (HX y AP) as (k & i & E1 & E2 & E3). rewrite E1 in X2. cbn [named_hep] in X2. subst k.
      apply E3. apply HG. exact E2.
    + right. split; auto. split; auto. left. intros y Hy AP. apply X3. eauto.
    + right. split; auto. split; auto. right. apply X3.
  - intros [X|(X1 & X2 & [X3|X3])]; [left; exact X| |].
    + right. right. split; auto. split; auto. left. intros (y & Hy & AP). apply (X3 y Hy AP).
    + right. right. split; auto.
Qed.
(** The connections the K8s/Calico layer of these documents allows, between pods, host endpoints and IP addresses. *)
Theorem C49_allowed_connections : host_endpoints_global -> forall docs pols f,
  Forall2 (fun y p => parse y = Some (Some p)) docs pols -> (forall y, In y docs -> benign cl y) -> f_all f = true ->
  forall pt, space pt -> pod_or_ip (cl_peers cl) (from pt) -> pod_or_ip (cl_peers cl) (to pt) ->
  (pt @ all_allowed (layer_conns A LK8sCalico (cl_peers cl) pols f) <-> side_open docs true pt /\ side_open docs false pt).
Proof using R Hc HC Hp Hnet Hempty.
  intros HG docs pols f F B Hf pt Sp H1 H2. destruct (docs_exact docs pols F B) as (X1 & X2 & _).
  refine (iff_trans (C24_k8s_calico_layer std_dom std_rest reg reg std_peers [Ivl 0 255] K (cl_peers cl) HC pols f X1 X2 Hf pt Sp H1 H2) _).
  rewrite (sides HG docs pols F B true pt Sp), (sides HG docs pols F B false pt Sp). tauto.
Qed.
(** ... and the configuration consisting of these documents. *)
Theorem C49_allowed_by_configuration : host_endpoints_global -> forall docs pols,
  Forall2 (fun y p => parse y = Some (Some p)) docs pols -> (forall y, In y docs -> benign cl y) ->
  forall pt, space pt -> pod_or_ip (cl_peers cl) (from pt) -> pod_or_ip (cl_peers cl) (to pt) ->
  (pt @ all_allowed (config_conns A (cl_peers cl) [(LK8sCalico, pols)] only_all_allowed) <-> side_open docs true pt /\ side_open docs false pt).
Proof using R Hc HC Hp Hnet Hempty.
  intros HG docs pols F B pt Sp H1 H2. destruct (docs_exact docs pols F B) as (X1 & X2 & _).
  assert (LE : layers_exact std_dom std_rest reg [(LK8sCalico, pols)]) by (intros n q [E|[]]; injection E as <- <-; exact X1).
  refine (iff_trans (C26_all_allowed_is_the_intersection std_dom std_rest reg reg std_peers [Ivl 0 255] K (cl_peers cl) HC _ LE pt Sp H1 H2) _).
  rewrite <- (C49_allowed_connections HG docs pols only_all_allowed F B eq_refl pt Sp H1 H2). split.
  - intros [X _]. apply X. left; reflexivity.
  - intros X. split; [|discriminate]. intros n q [E|[]]. injection E as <- <-. exact X.
Qed.
End Meaning.

(** ** Concrete cases *)
(** A few network strings. *)
Definition ex_net (y : yaml) : option cidr :=
  match y with
  | YStr s => if String.eqb s "10.0.0.0/8" then Some (Cidr false (10 * 2 ^ 24) 8)
              else if String.eqb s "10.1.0.0/16" then Some (Cidr false (10 * 2 ^ 24 + 2 ^ 16) 16) else None
  | _ => None
  end.
Lemma ex_net_ok : forall y c, ex_net y = Some c -> cidr_ok c.
Proof.
  intros y c E. unfold ex_net in E. destruct y; try discriminate. destruct (String.eqb s "10.0.0.0/8"); [injection E as <-; split; cbn; lia|].
  destruct (String.eqb s "10.1.0.0/16"); [injection E as <-; split; cbn; lia|discriminate].
Qed.
Lemma ex_cl_ports : forall p nm n pr, assoc_s nm (cl_ports ex_cl p) = Some (n, pr) -> (1 <= n <= 65535)%Z.
Proof.
  intros p nm n pr E. cbn [ex_cl cl_ports] in E. destruct (peer_eqb p pa); [|discriminate]. cbn [assoc_s] in E. destruct (String.eqb nm "http"); [|discriminate].
  injection E as <- <-. lia.
Qed.
Lemma ex_cl_container : container ex_reg (cl_peers ex_cl).
Proof. intros p H. split; auto. cbn in H. intuition (subst; reflexivity). Qed.
Lemma ex_cl_global : host_endpoints_global ex_cl.
Proof. intros i H. cbn in H. destruct H as [H|[H|[H|[H|[H|[]]]]]]; try discriminate. injection H as <-. reflexivity. Qed.
Definition policy_doc (name : string) (sp : list (string * yaml)) : yaml :=
  YMap [("apiVersion", YStr "networking.k8s.io/v1"); ("kind", YStr "NetworkPolicy");
        ("metadata", YMap [("name", YStr name); ("namespace", YStr "ns")]); ("spec", YMap sp)].
(** The pods app=web accept UDP port 53 and their port named http, from the pods app=db and from 10.0.0.0/8 but not
    10.1.0.0/16. *)
Definition web_doc : yaml := policy_doc "web"
  [("podSelector", sel [("app", "web")] []);
   ("ingress", YList [YMap [("from", YList [YMap [("podSelector", sel [("app", "db")] [])];
                                            YMap [("ipBlock", YMap [("cidr", YStr "10.0.0.0/8"); ("except", YList [YStr "10.1.0.0/16"])])]]);
                            ("ports", YList [YMap [("protocol", YStr "UDP"); ("port", YInt 53)]; YMap [("port", YStr "http")]])]])].
(** The pods app=db may only send to namespaces env=prod, TCP ports 8000 to 9000. *)
Definition db_doc : yaml := policy_doc "db"
  [("podSelector", sel [("app", "db")] []);
   ("policyTypes", YList [YStr "Egress"]);
   ("egress", YList [YMap [("to", YList [YMap [("namespaceSelector", sel [("env", "prod")] [])]]);
                           ("ports", YList [YMap [("protocol", YStr "TCP"); ("port", YInt 8000); ("endPort", YInt 9000)]])]])].
Definition ex_parse := parse_policy ex_cl ex_net (cube_ops std_dom std_all ex_reg) (port_conns ex_reg ex_cl).
Definition ex_k8s_pols : list policy := flat_map (fun y => match ex_parse y with Some (Some p) => [p] | _ => [] end) [web_doc; db_doc].
Example ex_docs_parse : Forall2 (fun y p => ex_parse y = Some (Some p)) [web_doc; db_doc] ex_k8s_pols.
Proof. unfold ex_k8s_pols. repeat constructor. Qed.
Lemma one_spec : forall n sp0 sp, doc_spec (policy_doc n sp0) sp -> sp = sp0.
Proof. intros n sp0 sp (m & E & F). injection E as <-. cbn in F. congruence. Qed.
Example ex_docs_benign : forall y, In y [web_doc; db_doc] -> benign ex_cl y.
Proof.
  assert (NE : ~ empty_value_sel (sel [("env", "prod")] [])).
  { apply ex_selector_hypotheses. }
  intros y [<-|[<-|[]]]; (split; [intros sp D|intros sp ing r D Hr m p E Hp]); apply one_spec in D; subst sp.
  - cbn. intros _ H. destruct H. reflexivity.
  - destruct ing; [|destruct Hr]. destruct Hr as [<-|[]]. injection E as <-. destruct Hp as [<-|[<-|[]]]; intros m E; injection E as <-; intros H; destruct H; reflexivity.
  - intros H. exfalso. discriminate H.
  - destruct ing; [destruct Hr|]. destruct Hr as [<-|[]]. injection E as <-. destruct Hp as [<-|[]]. intros m E. injection E as <-. intros _.
    cbn [yget assoc_s String.eqb Ascii.eqb Bool.eqb]. split; [exact NE|]. split.
    + intros H. exfalso. apply (proj1 (proj2 ex_selector_hypotheses)). exact H.
    + intros (m & r & E & _). discriminate E.
Qed.
(** b may open its connections to port http of a, not to other ports; c is not restricted but may not reach a; 10.2.0.0 may reach
    a's port 53 over UDP, 10.1.0.0 may not. *)
Definition ex_docs_conns := all_allowed (layer_conns (cube_ops std_dom std_all ex_reg) LK8sCalico (cl_peers ex_cl) ex_k8s_pols only_all_allowed).
Definition ex_open (s d pr n : Z) : bool := contains (val_ops std_dom) (ex_conn s d pr n) ex_docs_conns.
Example ex_docs_allowed :
  ex_open (idx pb) (idx pa) 6 8080 = true /\ ex_open (idx pb) (idx pa) 6 8081 = false /\ ex_open (idx pb) (idx pa) 17 53 = false /\
  ex_open (idx pc) (idx pa) 6 8080 = false /\ ex_open (idx pc) (idx pb) 6 8081 = true /\ ex_open (idx pb) (idx pc) 6 8080 = false /\
  ex_open (10 * 2 ^ 24 + 2 * 2 ^ 16) (idx pa) 17 53 = true /\ ex_open (10 * 2 ^ 24 + 2 ^ 16) (idx pa) 17 53 = false.
Proof. repeat apply conj; vm_compute; reflexivity. Qed.
(** The theorems apply. *)
Example ex_C49 : forall pt, a_space std_dom pt -> pod_or_ip (cl_peers ex_cl) (a_src ex_reg pt) -> pod_or_ip (cl_peers ex_cl) (a_dst ex_reg pt) ->
  (pt @ all_allowed (layer_conns (cube_ops std_dom std_all ex_reg) LK8sCalico (cl_peers ex_cl) ex_k8s_pols only_all_allowed) <->
   side_open ex_reg ex_cl ex_net [web_doc; db_doc] true pt /\ side_open ex_reg ex_cl ex_net [web_doc; db_doc] false pt).
Proof.
  exact (C49_allowed_connections ex_reg ex_reg_ok ex_cl ex_cl_ok ex_cl_container ex_cl_ports ex_net ex_net_ok eq_refl ex_cl_global
           [web_doc; db_doc] ex_k8s_pols only_all_allowed ex_docs_parse ex_docs_benign eq_refl).
Qed.
Example ex_C48 : applies_to ex_cl web_doc true (PN 0 "ns/a") /\ ~ applies_to ex_cl web_doc true (PN 0 "ns/c") /\ ~ applies_to ex_cl web_doc false (PN 0 "ns/a") /\
  allows ex_reg ex_cl ex_net web_doc true (ex_conn (idx pb) (idx pa) 6 8080) /\ ~ allows ex_reg ex_cl ex_net web_doc true (ex_conn (idx pb) (idx pa) 6 80).
Proof.
  assert (SP : forall sp, doc_spec web_doc sp -> sp = match web_doc with YMap m => match yget m "spec" with YMap sp => sp | _ => [] end | _ => [] end) by (intros sp D; apply one_spec in D; exact D).
  assert (WN : forall ns, doc_ns web_doc ns -> ns = "ns") by (intros ns (m & md & E1 & E2 & E3); injection E1 as <-; cbn in E2; injection E2 as <-; cbn in E3; destruct E3 as [E3|[E3 _]]; congruence).
  assert (DS : exists sp, doc_spec web_doc sp) by (eexists; eexists; split; reflexivity).
  assert (DN : doc_ns web_doc "ns") by (eexists; eexists; split; [reflexivity|]; split; [reflexivity|]; left; reflexivity).
  destruct DS as [sp D]. pose proof (SP sp D) as Es.
  split; [|split; [|split; [|split]]].
  - exists sp, "ns", pa, 0, "ns/a". split; auto. split; auto. split; [subst sp; left; reflexivity|]. split; [reflexivity|]. split; [reflexivity|].
    split; [left; reflexivity|]. split; [reflexivity|]. subst sp. eexists. split; [reflexivity|]. split.
    + intros l k v El Hk. injection El as <-. destruct Hk as [Hk|[]]. injection Hk as <- <-. left. reflexivity.
    + intros r [].
  - intros (sp' & ns & q & k & i & D' & N & _ & -> & E1 & _ & E2 & _). injection E1 as <- <-. rewrite (WN ns N) in E2. vm_compute in E2. discriminate.
  - intros (sp' & ns & q & k & i & D' & N & H & _). rewrite (SP sp' D') in H. destruct H as [[]|[_ H]]. apply H. reflexivity.
  - unfold allows, doc_allows, far. rewrite src_of, dst_of, point_b, point_a. eexists sp, "ns", _. split; auto. split; auto.
    split; [subst sp; left; reflexivity|]. eexists. split; [reflexivity|]. split.
    + right. eexists. split; [left; reflexivity|]. eexists. split; [reflexivity|]. right. split; [reflexivity|]. exists pb. split; [right; left; reflexivity|].
      split; [exists 0, "ns/b"; split; reflexivity|]. split; [left; split; reflexivity|]. right. eexists. split; [reflexivity|]. split.
      * intros l k v El Hk. injection El as <-. destruct Hk as [Hk|[]]. injection Hk as <- <-. left. reflexivity.
      * intros r [].
    + right. eexists. split; [right; left; reflexivity|]. eexists. split; [reflexivity|]. split; [left; split; [left; reflexivity|reflexivity]|].
      right. left. exists "http". split; [reflexivity|]. exists 0, "ns/a". repeat split; reflexivity.
  - intros (sp' & ns & r & D' & N & Hr & m & Em & _ & H). rewrite (SP sp' D') in Hr. destruct Hr as [<-|[]]. injection Em as <-.
    unfold allows in *. rewrite dst_of, point_a in H.
    destruct H as [H|(q & [<-|[<-|[]]] & m & Em & Pr & H)]; [discriminate|injection Em as <-..].
    + destruct Pr as [[[Pr|[Pr|Pr]] _]|[[_ Pr]|[Pr _]]]; vm_compute in Pr; discriminate Pr.
    + destruct H as [H|[(nm & H & k & s & E & X)|(a & H & _)]]; [discriminate| |discriminate]. injection H as <-. injection E as <- <-. vm_compute in X. discriminate.
Qed.
Example ex_C38_ports :
  legal_protocol (YStr "SCTP") /\ port_name_ok "http" = true /\
  parse_port (YMap [("port", YInt 80)]) = Some (6%Z, PortSet [Ivl 80 80] [] []) /\
  parse_port (YMap [("protocol", YStr "UDP"); ("port", YInt 8000); ("endPort", YInt 9000)]) = Some (17%Z, PortSet [Ivl 8000 9000] [] []) /\
  parse_port (YMap [("port", YInt 9000); ("endPort", YInt 8000)]) = None /\ parse_port (YMap [("port", YInt 65536)]) = None /\
  parse_port (YMap [("port", YStr "http"); ("endPort", YInt 90)]) = None /\ parse_port (YMap [("endPort", YInt 90)]) = None.
Proof. split; [right; right; reflexivity|]. repeat apply conj; vm_compute; reflexivity. Qed.
Example ex_C38_flags :
  benign_flags web_doc /\ benign_flags db_doc /\
  (exists p, ex_parse web_doc = Some (Some p) /\ p_affects_in p = true /\ p_affects_eg p = false) /\
  (exists p, ex_parse db_doc = Some (Some p) /\ p_affects_in p = false /\ p_affects_eg p = true) /\
  (* ingress rules in a policy about egress only *)
  ex_parse (policy_doc "p" [("podSelector", YMap []); ("policyTypes", YList [YStr "Egress"]); ("ingress", YList [])]) = None.
Proof.
  split; [apply ex_docs_benign; left; reflexivity|]. split; [apply ex_docs_benign; right; left; reflexivity|].
  split; [|split].
  - destruct (ex_parse web_doc) as [[p|]|] eqn:E; [|vm_compute in E; discriminate..]. exists p. split; auto. vm_compute in E. injection E as <-. split; reflexivity.
  - destruct (ex_parse db_doc) as [[p|]|] eqn:E; [|vm_compute in E; discriminate..]. exists p. split; auto. vm_compute in E. injection E as <-. split; reflexivity.
  - vm_compute. reflexivity.
Qed.
(** ** Counterexamples *)
(** An empty egress section without policyTypes makes a policy about egress; Kubernetes adds Egress to the default types only
    if there are egress rules. *)
Definition empty_egress_doc : yaml := policy_doc "p" [("podSelector", sel [("app", "web")] []); ("egress", YList [])].
Theorem C38_empty_egress_refuted :
  ~ forall y p sp, ex_parse y = Some (Some p) -> doc_spec y sp -> (p_affects_eg p = true <-> about sp false).
Proof.
  intros H. destruct (ex_parse empty_egress_doc) as [[p|]|] eqn:E; [|vm_compute in E; discriminate..].
  assert (F : p_affects_eg p = true) by (vm_compute in E; injection E as <-; reflexivity).
  assert (D : doc_spec empty_egress_doc [("podSelector", sel [("app", "web")] []); ("egress", YList [])]) by (eexists; split; reflexivity).
  apply (H empty_egress_doc p _ E D) in F. destruct F as [[]|[_ F]]. apply F. reflexivity.
Qed.

Print Assumptions C38_port_meaning.
Print Assumptions C38_legal_ports_accepted.
Print Assumptions C38_illegal_ports_rejected.
Print Assumptions C38_zero_end_refuted.
Print Assumptions C38_flags.
Print Assumptions C38_rules_outside_types_rejected.
Print Assumptions C38_empty_egress_refuted.
Print Assumptions C48_selected_pods.
Print Assumptions C48_matched_connections.
Print Assumptions C49_allowed_connections.
Print Assumptions C49_allowed_by_configuration.
