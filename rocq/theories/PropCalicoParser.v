(** * C39, C51, C52: Calico policy documents, from the decoded YAML to the allowed connections.

    What a rule entry means ([crule_matches] and the definitions before it) is in CalicoParserFacts.v, what a selector text
    means ([denotes], [sat], [ns_sel]) in CalicoSelectorGram.v, CalicoSelectorFacts.v and CalicoSelectorSets.v; none of them
    refers to the parser. *)
From Coq Require Import ZArith List Bool Arith Lia String Ascii Permutation.
From Verif Require Import IntervalModel IntervalFacts HyperModel HyperFacts HyperOps HyperDims HyperTop HyperInst
                          PropHyperCube ConnModel ConnFacts TextModel TextFacts PortProtoModel PortProtoFacts PeerModel PeerFacts PeerSetFacts
                          PolicyModel PolicyLaws PolicyFacts LayerFacts OrderFacts ConnAlg StdDims PropLayers YamlModel ClusterModel K8sParserModel SelectorFacts
                          ConnDict NamedExcl PropSelectors K8sParserFacts PropK8sParser CalicoSelectorModel CalicoSelectorFacts CalicoSelectorGram
                          CalicoSelectorSets CalicoParserModel CalicoParserFacts CalicoRuleFacts PropCalicoSelectors.
From Verif Require SemDiff.
Import ListNotations.
Local Open Scope string_scope.
Local Open Scope list_scope.
Local Open Scope nat_scope.
Local Opaque min_pod_index max_pod_index min_ipv6_index max_ipv6_index max_ipv4_index v4max v6min v6max.

(** ** The parts of a document *)
(** The namespace: the one of the metadata if not empty; else "default" for a NetworkPolicy, none for the global kinds. *)
Definition cdoc_ns (kind : string) (md : list (string * yaml)) (ns : option string) : Prop :=
  (exists s, yget md "namespace" = YStr s /\ s <> "" /\ ns = Some s) \/
  (~ given (yget md "namespace") /\ ns = if String.eqb kind "NetworkPolicy" then Some "default" else None).
Definition cdoc (y : yaml) (kind name : string) (ns : option string) (sp : list (string * yaml)) : Prop :=
  exists m md, y = YMap m /\ yget m "kind" = YStr kind /\ yget m "metadata" = YMap md /\ yget md "name" = YStr name /\
    yget m "spec" = YMap sp /\ cdoc_ns kind md ns.
Lemma cdoc_fn : forall y k n s sp k' n' s' sp', cdoc y k n s sp -> cdoc y k' n' s' sp' -> k' = k /\ n' = n /\ s' = s /\ sp' = sp.
Proof.
  intros y k n s sp k' n' s' sp' (m & md & -> & E1 & E2 & E3 & E4 & E5) (m' & md' & E & F1 & F2 & F3 & F4 & F5). injection E as <-.
  rewrite E1 in F1. injection F1 as <-. rewrite E2 in F2. injection F2 as <-. rewrite E3 in F3. injection F3 as <-. rewrite E4 in F4. injection F4 as <-.
  split; auto. split; auto. split; auto. destruct E5 as [(a & A1 & A2 & A3)|[A1 A2]], F5 as [(b & B1 & B2 & B3)|[B1 B2]].
  - congruence.
  - destruct B1. rewrite A1. split; [discriminate|congruence].
  - destruct A1. rewrite B1. split; [discriminate|congruence].
  - congruence.
Qed.
(** Which directions a policy is about: types; or, by default, egress if there are egress rules, and ingress if there are
    ingress rules or no egress rules. *)
Definition cabout (sp : list (string * yaml)) (ing : bool) : Prop :=
  let types := ylist (yget sp "types") in
  In (YStr (if ing then "Ingress" else "Egress")) types \/
  (types = [] /\ if ing then rules_in sp true <> [] \/ rules_in sp false = [] else rules_in sp false <> []).
(** The endpoints of a document: of its namespace (all but DNS entries, without one), satisfying its selectors; for a
    profile, those with this first profile. *)
Definition doc_selects (cl : cluster) (profiles : peer -> list string) (y : yaml) (x : point) : Prop :=
  exists kind name ns sp q, cdoc y kind name ns sp /\ at_peer q x /\ In q (cl_peers cl) /\
    if String.eqb kind "Profile" then exists rest, profiles q = name :: rest
    else in_scope cl ns q /\ (given (yget sp "selector") -> endpoint_sel cl ns (yget sp "selector") x) /\
         (given (yget sp "namespaceSelector") -> namespace_sel cl (yget sp "namespaceSelector") x).
Definition capplies_to (cl : cluster) (profiles : peer -> list string) (y : yaml) (ing : bool) (x : point) : Prop :=
  doc_selects cl profiles y x /\ exists kind name ns sp, cdoc y kind name ns sp /\ cabout sp ing.
(** A rule entry with this action, and the first rule entry of a list, other than Log rules, that matches. *)
Definition has_action (m : list (string * yaml)) (a : action) : Prop := yget m "action" = YStr (action_name a).
Definition first_entry (matches : list (string * yaml) -> Prop) (l : list yaml) (a : action) : Prop :=
  exists pre m post, l = pre ++ YMap m :: post /\ has_action m a /\ a <> Log /\ matches m /\
    forall m', In (YMap m') pre -> ~ has_action m' Log -> ~ matches m'.
Lemma has_action_fn : forall m a b, has_action m a -> has_action m b -> a = b.
Proof. intros m a b H G. unfold has_action in *. rewrite H in G. destruct a, b; try reflexivity; discriminate. Qed.

(** ** Inversion of the parser *)
Section Docs.
Context (cl : cluster) (net : yaml -> option cidr) (profiles : peer -> list string) (A : cops conns) (mk : cdict -> conns).
Notation parse := (calico_policy cl net profiles A mk).
Lemma rules_list : forall ns ing sel sp k rs,
  bind (yiter (yget_list sp k)) (mapM (calico_rule cl net A mk ns ing sel)) = Some rs ->
  mapM (calico_rule cl net A mk ns ing sel) (ylist (yget sp k)) = Some rs /\ (has sp k = true -> ylist (yget sp k) = [] -> rs = []).
Proof.
  intros ns ing sel sp k rs E.
  assert (S : forall l rs, mapM (calico_rule cl net A mk ns ing sel) (map YStr l) = Some rs -> rs = []).
  { intros [|s l] r H; [injection H as <-; auto|]. cbn [mapM map] in H. unfold calico_rule at 1 in H. cbn [check_fields bind] in H. discriminate. }
  unfold yget_list, yget, has in *. destruct (assoc_s k sp) as [v|]; [|injection E as <-; split; [reflexivity|discriminate]].
  destruct v as [|b|z| |s|l|m]; cbn [yiter bind ylist] in *; try discriminate.
  - rewrite <- (map_map (fun c => String c "") YStr) in E. apply S in E as ->. auto.
  - split; auto. intros _ ->. injection E as <-. auto.
  - rewrite <- (map_map fst YStr) in E. apply S in E as ->. auto.
Qed.
Lemma calico_policy_inv : forall y p, parse y = Some (Some p) ->
  exists kind name ns sp fl, cdoc y kind name ns sp /\ In kind ["NetworkPolicy"; "GlobalNetworkPolicy"; "Profile"] /\
    p_name p = name /\ p_kind p = kind_type kind /\ CalicoParserModel.affects sp = Some fl /\ p_affects_in p = fst fl /\ p_affects_eg p = snd fl /\
    selected_peers cl profiles ns (String.eqb kind "Profile") name sp = Some (p_selected p) /\
    order_of (yget sp "order") = Some (p_ord p) /\
    (forall ing, mapM (calico_rule cl net A mk ns ing (p_selected p)) (rules_in sp ing) = Some (rules_of p ing)).
Proof.
  intros y p E. unfold calico_policy in E.
  match type of E with bind ?e _ = _ => destruct e as [o|] eqn:Eg; [|discriminate] end. cbn [bind] in E.
  destruct o as [[[m name] nsy]|]; [|discriminate].
  unfold parse_generic in Eg. destruct y as [| | | | | |m0]; try discriminate.
  destruct (negb (among _ (yget m0 "kind"))) eqn:Ek; [discriminate|].
  destruct (yget m0 "apiVersion") as [| | | |v| |]; try discriminate;
    [|destruct (existsb _ _); discriminate|destruct (existsb _ _); discriminate].
  match type of Eg with (if ?b then _ else _) = _ => destruct b; [discriminate|] end. match type of Eg with bind ?e _ = _ => destruct e as [mm|] eqn:Ec; [|discriminate] end. cbn [bind] in Eg.
  apply check_fields_map in Ec as [Em F]. injection Em as <-.
  destruct (check_fields (yget m0 "metadata") metadata_fields) as [md|] eqn:Ed; [|discriminate]. cbn [bind] in Eg.
  apply check_fields_map in Ed as [Ed Fm]. destruct (yget md "name") as [| | | |nm| |] eqn:Enm; try discriminate. injection Eg as <- <- <-.
  apply negb_false_iff in Ek. destruct (yget m0 "kind") as [| | | |kind| |] eqn:Ekd; try discriminate.
  destruct (yget m0 "spec") as [| | | | | |sp] eqn:Es; try discriminate.
  assert (Hkind : In kind ["NetworkPolicy"; "GlobalNetworkPolicy"; "Profile"]) by (apply smem_In; exact Ek).
  set (nsy := match assoc_s "namespace" md with Some v0 => v0 | None => YNull end) in *.
  assert (Nsy : nsy = yget md "namespace") by reflexivity. clearbody nsy. cbv zeta in E.
  destruct (ytrue nsy && String.eqb kind "GlobalNetworkPolicy"); [discriminate|].
  set (ns := if ytrue nsy then match nsy with YStr s => Some s | _ => None end else if String.eqb kind "NetworkPolicy" then Some "default" else None) in *.
  assert (Hns : cdoc_ns kind md ns).
  { pose proof (typed _ _ _ _ _ (field_of _ _ _ Fm (or_intror (or_introl eq_refl)))) as T. unfold ns, cdoc_ns. rewrite <- Nsy in *.
    destruct T as [->|T]; [right; split; [intros [H _]; congruence|reflexivity]|]. destruct nsy as [| | | |s| |]; try discriminate. destruct s as [|c s].
    - right. split; [intros [_ H]; congruence|reflexivity].
    - left. eexists. split; [reflexivity|]. split; [discriminate|reflexivity]. }
  clearbody ns. match type of E with bind ?e _ = _ => destruct e as [sp'|]; [|discriminate] end. cbn [bind] in E.
  destruct (CalicoParserModel.affects sp) as [fl|] eqn:Ef; [|discriminate]. cbn [bind] in E.
  destruct (selected_peers cl profiles ns _ nm sp) as [sel|] eqn:Esel; [|discriminate]. cbn [bind] in E.
  match type of E with (if ?b then _ else _) = _ => destruct b; [discriminate|] end.
  match type of E with bind ?e _ = _ => destruct e as [ins|] eqn:Ei; [|discriminate] end. cbn [bind] in E.
  match type of E with bind ?e _ = _ => destruct e as [egs|] eqn:Ee; [|discriminate] end. cbn [bind] in E.
  match type of E with (if ?b then _ else _) = _ => destruct b; [discriminate|] end.
  destruct (order_of (yget sp "order")) as [ord|] eqn:Eo; [|discriminate]. cbn [bind] in E. injection E as <-. cbn [p_name p_kind p_affects_in p_affects_eg p_selected p_ord].
  exists kind, nm, ns, sp, fl. split; [exists m0, md; auto 10|]. do 8 (split; [auto|]).
  intros ing. unfold rules_of, rules_in. cbn [p_ingress p_egress]. destruct ing; [apply rules_list in Ei; apply Ei|apply rules_list in Ee; apply Ee].
Qed.
End Docs.

(** ** C51: types and order *)
(** Outside the findings: types is a list; without types, no empty egress section, and no empty ingress section beside
    egress rules (F53). *)
Definition benign_types (sp : list (string * yaml)) : Prop :=
  is_list (yget sp "types") /\
  (ylist (yget sp "types") = [] -> (assoc_s "egress" sp <> None -> rules_in sp false <> []) /\
     (assoc_s "ingress" sp <> None -> rules_in sp true <> [] \/ rules_in sp false = [])).
Lemma affects_cabout : forall sp fl, CalicoParserModel.affects sp = Some fl -> benign_types sp ->
  (fst fl = true <-> cabout sp true) /\ (snd fl = true <-> cabout sp false).
Proof.
  intros sp fl E [BL BT]. unfold CalicoParserModel.affects in E.
  assert (T : types_of (yget_list sp "types") = Some (ylist (yget sp "types")) \/ types_of (yget_list sp "types") = None).
  { unfold yget_list, yget in *. destruct (assoc_s "types" sp) as [v|]; [|left; reflexivity]. destruct BL as [->|(l & ->)]; auto. }
  destruct T as [T|T]; rewrite T in E; [|discriminate]. cbn [bind] in E. set (ts := ylist (yget sp "types")) in *.
  destruct (negb (forallb _ ts)); [discriminate|]. cbv zeta in E. unfold cabout. fold ts.
  assert (G : forall w l, existsb (among [w]) l = true <-> In (YStr w) l).
  { intros w l. rewrite existsb_exists. split.
    - intros (y & Hy & H). destruct y; try discriminate. apply smem_In in H. destruct H as [<-|[]]. auto.
    - intros H. exists (YStr w). split; auto. apply smem_In. left; auto. }
  match type of E with (if ?b then _ else _) = _ => destruct b; [discriminate|] end. injection E as <-. cbn [fst snd].
  rewrite !orb_true_iff, !G. destruct ts as [|t ts'].
  - destruct (BT eq_refl) as [B1 B2]. cbn [andb]. unfold has, rules_in, yget in *.
    destruct (assoc_s "ingress" sp) as [vi|], (assoc_s "egress" sp) as [ve|]; cbn [orb negb In] in *; split; split; intros H; auto.
    all: repeat match goal with
         | H : False \/ _ |- _ => destruct H as [[]|H]
         | H : _ /\ _ |- _ => destruct H
         | H : true = true |- _ => clear H
         | H : false = true |- _ => discriminate H
         end; auto.
    all: try (right; split; [reflexivity|]).
    all: try (apply B2; discriminate). all: try (apply B1; discriminate). all: try (right; reflexivity).
    all: exfalso; repeat match goal with
         | H : _ \/ _ |- _ => destruct H as [H|H]
         | H : [] <> [] |- _ => destruct H; reflexivity
         | H : ylist YNull <> [] |- _ => destruct H; reflexivity
         end.
    all: apply B1; auto; discriminate.
  - split; split; intros [H|H]; auto; [cbn in H; discriminate H|destruct H; discriminate|cbn in H; discriminate H|destruct H; discriminate].
Qed.
Theorem C51_flags : forall cl net profiles (A : cops conns) mk y p kind name ns sp, calico_policy cl net profiles A mk y = Some (Some p) ->
  cdoc y kind name ns sp -> benign_types sp -> (p_affects_in p = true <-> cabout sp true) /\ (p_affects_eg p = true <-> cabout sp false).
Proof.
  intros cl net profiles A mk y p kind name ns sp E D B. destruct (calico_policy_inv cl net profiles A mk y p E) as (k & n & s & sp' & fl & D' & _ & _ & _ & E1 & E2 & E3 & _).
  destruct (cdoc_fn _ _ _ _ _ _ _ _ _ D D') as (-> & -> & -> & ->). rewrite E2, E3. apply affects_cabout; auto.
Qed.
(** Kind, name and order. *)
Theorem C51_kind_and_order : forall cl net profiles (A : cops conns) mk y p kind name ns sp, calico_policy cl net profiles A mk y = Some (Some p) ->
  cdoc y kind name ns sp ->
  p_name p = name /\ (p_kind p = TCalico <-> kind = "NetworkPolicy") /\ (p_kind p = TCalicoGlobal <-> kind = "GlobalNetworkPolicy") /\
  (p_kind p = TCalicoProfile <-> kind = "Profile") /\ is_calico p /\
  (rank p = None <-> yget sp "order" = YNull) /\ (forall n, rank p = Some n <-> yint (yget sp "order") = Some n).
Proof.
  intros cl net profiles A mk y p kind name ns sp E D. destruct (calico_policy_inv cl net profiles A mk y p E) as (k & n & s & sp' & fl & D' & Hk & E1 & E2 & _ & _ & _ & _ & E3 & _).
  destruct (cdoc_fn _ _ _ _ _ _ _ _ _ D D') as (-> & -> & -> & ->). split; auto.
  assert (R : rank p = p_ord p) by (unfold rank; rewrite E2; destruct Hk as [<-|[<-|[<-|[]]]]; reflexivity).
  unfold is_calico. rewrite R, E2. split; [|split; [|split; [|split]]].
  1-3: destruct Hk as [<-|[<-|[<-|[]]]]; cbn; split; congruence.
  - destruct Hk as [<-|[<-|[<-|[]]]]; cbn; auto.
  - unfold order_of in E3. destruct (yget sp "order") as [|b|z| |t|l|d]; cbn [yint option_map] in *; try discriminate; injection E3 as <-; split; try (split; congruence); intros; split; congruence.
Qed.

(** ** C39, C51: what a parsed rule and a parsed policy mean *)
Section Meaning.
Context (reg : list peer) (R : reg_ok reg).
Context (cl : cluster) (Hc : cluster_ok cl) (Hk : kinds_ok cl) (HC : container reg (cl_peers cl)).
Context (Hp : forall p nm n pr, assoc_s nm (cl_ports cl p) = Some (n, pr) -> (1 <= n <= 65535)%Z).
Context (net : yaml -> option cidr) (Hnet : forall y c, net y = Some c -> cidr_ok c).
Context (profiles : peer -> list string).
Let K := std_alg reg R.
Let A := cube_ops std_dom std_all reg.
Notation space := (a_space std_dom).
Notation from := (a_src reg).
Notation to := (a_dst reg).
Notation mk := (conns_of std_dom reg (cl_ports cl)).
Notation parse := (calico_policy cl net profiles A mk).
(** The rule entry matches the connection. *)
Definition crule_at (ns : option string) (m : list (string * yaml)) (pt : conn) : Prop :=
  crule_matches cl net ns m (from pt) (to pt) (pt 2) (pt 3) (pt 4) (pt 8) (pt 9).
Theorem C39_rule_connections : forall ns ing sel m r, pok reg sel -> calico_rule cl net A mk ns ing sel (YMap m) = Some r -> benign_crule m ->
  has_action m (r_action r) /\
  forall pt, space pt -> (pt @ r_props r <-> pt_in (near reg ing pt) sel /\ crule_at ns m pt).
Proof using R Hc Hk HC Hp Hnet.
  intros ns ing sel m r Ps E B. destruct (crule_spec reg R cl Hc Hk HC Hp net Hnet ns ing sel m r Ps E B) as (X1 & _ & _ & X2). split; auto.
Qed.
(** In particular protocol, notProtocol, icmp and notICMP, when both ends are unrestricted. *)
Theorem C39_protocol_and_icmp : forall ns ing sel m r, pok reg sel -> calico_rule cl net A mk ns ing sel (YMap m) = Some r -> benign_crule m ->
  yget m "source" = YNull -> yget m "destination" = YNull ->
  forall pt, space pt -> pt_in (near reg ing pt) sel -> pod_or_ip (cl_peers cl) (from pt) -> pod_or_ip (cl_peers cl) (to pt) ->
  (pt @ r_props r <->
    (yget m "protocol" <> YNull -> means_proto (yget m "protocol") (pt 2)) /\
    (yget m "notProtocol" <> YNull -> ~ means_proto (yget m "notProtocol") (pt 2)) /\
    (yget m "icmp" <> YNull -> icmp_matches (yget m "icmp") (pt 8) (pt 9)) /\
    (yget m "notICMP" <> YNull -> ~ icmp_matches (yget m "notICMP") (pt 8) (pt 9))).
Proof using R Hc Hk HC Hp Hnet.
  intros ns ing sel m r Ps E B S D pt Sp Hn Hf Ht. rewrite (proj2 (C39_rule_connections ns ing sel m r Ps E B) pt Sp).
  unfold crule_at, crule_matches. rewrite S, D. cbn [entity_matches]. unfold pod_or_ip in *. clear - Hn Hf Ht. tauto.
Qed.

(** The document's verdict about a connection: the action of its first rule entry that matches (Log entries have none). *)
Definition cdoc_says (y : yaml) (ing : bool) (pt : conn) (a : action) : Prop :=
  exists kind name ns sp, cdoc y kind name ns sp /\ first_entry (fun m => crule_at ns m pt) (rules_in sp ing) a.
(** Documents outside the findings.  A rule that excludes named ports must match some connection. *)
Definition benign_cdoc (y : yaml) : Prop :=
  forall kind name ns sp, cdoc y kind name ns sp -> benign_types sp /\
    (yget sp "selector" = YStr "" \/ benign_sel (yget sp "selector")) /\ benign_nssel (yget sp "namespaceSelector") /\
    forall ing m, In (YMap m) (rules_in sp ing) -> benign_crule m /\
      (~ excludes_names m \/ exists pt, space pt /\ doc_selects cl profiles y (near reg ing pt) /\ crule_at ns m pt).
Lemma given_true : forall y, benign_nssel y \/ y = YStr "" \/ benign_sel y -> (given y <-> ytrue y = true).
Proof using.
  intros y H. unfold given.
  assert (X : y = YNull \/ exists s, y = YStr s).
  { destruct H as [[->|[->|(s & e & -> & _)]]|[->|[->|(s & e & -> & _)]]]; eauto. }
  destruct X as [->|([|c s] & ->)]; cbn; split; try discriminate; try (intros [H1 H2]; congruence); try reflexivity.
  intros _. split; discriminate.
Qed.
Lemma inter_spec : forall s t, pok reg s -> pok reg t ->
  exists r, ps_inter s t = Some r /\ pok reg r /\ forall x, pt_in x r <-> pt_in x s /\ pt_in x t.
Proof using.
  intros s t [A1 A2] [B1 B2]. destruct (ps_inter_ok s t A1 B1) as (r & Er & R1 & R2). exists r. split; auto. split; auto. split; auto.
  intros k n H. apply (R2 (PN k n)) in H as [H _]. apply A2. exact H.
Qed.
Lemma selected_spec : forall y kind name ns sp s, cdoc y kind name ns sp -> selected_peers cl profiles ns (String.eqb kind "Profile") name sp = Some s ->
  (yget sp "selector" = YStr "" \/ benign_sel (yget sp "selector")) -> benign_nssel (yget sp "namespaceSelector") ->
  pok reg s /\ (forall x, pt_in x s <-> doc_selects cl profiles y x) /\ forall x, pt_in x s -> member (cl_peers cl) x.
Proof using Hc Hk HC.
  intros y kind name ns sp s D E B1 B2.
  pose proof (given_true (yget sp "selector") (or_intror B1)) as G1. pose proof (given_true (yget sp "namespaceSelector") (or_introl B2)) as G2.
  assert (DS : forall x, doc_selects cl profiles y x <-> exists q, at_peer q x /\ In q (cl_peers cl) /\
    if String.eqb kind "Profile" then exists rest, profiles q = name :: rest
    else in_scope cl ns q /\ (ytrue (yget sp "selector") = true -> endpoint_sel cl ns (yget sp "selector") x) /\
         (ytrue (yget sp "namespaceSelector") = true -> namespace_sel cl (yget sp "namespaceSelector") x)).
  { intros x. split.
    - intros (k & n & s' & sp' & q & D' & H). destruct (cdoc_fn _ _ _ _ _ _ _ _ _ D D') as (-> & -> & -> & ->). exists q.
      destruct (String.eqb kind "Profile"); [exact H|]. rewrite G1, G2 in H. exact H.
    - intros (q & H). exists kind, name, ns, sp, q. split; auto. destruct (String.eqb kind "Profile"); [exact H|]. rewrite G1, G2. exact H. }
  clear G1 G2.
  assert (M : pok reg s /\ forall x, pt_in x s <-> doc_selects cl profiles y x).
  { unfold selected_peers in E. 
    destruct (String.eqb kind "Profile").
    - destruct (ytrue (yget sp "selector")); [discriminate|]. cbn [negb andb] in E. injection E as <-.
      assert (X : forall q, In q (profile_pods cl profiles name) <-> In q (cl_peers cl) /\ exists rest, profiles q = name :: rest).
      { intros q. unfold profile_pods. rewrite select_In. destruct (profiles q) as [|f l].
        - split; [intros [_ H]; discriminate|intros (_ & r & H); discriminate].
        - rewrite String.eqb_eq. split; [intros [H ->]; eauto|intros (H & r & H'); injection H' as -> _; auto]. }
      assert (P : plain (profile_pods cl profiles name)) by (intros q Hq; apply X in Hq as [Hq _]; apply (cluster_plain cl Hc q Hq)).
      split; [apply (plain_pok cl reg HC); auto; intros q Hq; apply X in Hq; tauto|].
      intros x. rewrite DS, (plain_pt _ x P). unfold at_peer. split; [intros (q & Hq & H); apply X in Hq as [H1 H2]; exists q; auto|intros (q & H & H1 & H2); exists q; split; auto; apply X; auto].
    - cbn [andb] in E. rewrite andb_false_r in E.
      assert (NP : pok reg (namespace_pods cl ns)) by (apply (plain_pok cl reg HC); [apply ns_pods_plain; auto|intros q Hq; apply (namespace_pods_In cl) in Hq as [Hq _]; auto]).
      assert (NM : forall n x, pt_in x (namespace_pods cl n) <-> exists q, at_peer q x /\ in_scope cl n q).
      { intros n x. rewrite (plain_pt _ x (ns_pods_plain cl Hc n)). unfold at_peer. split; intros (q & H1 & H2); exists q; split; auto; apply (namespace_pods_In cl); auto. }
      assert (S1 : exists p1, (if ytrue (yget sp "selector") then meet (Some (all_group cl)) (calico_selector cl ns false (yget sp "selector")) else Some (namespace_pods cl ns)) = Some p1 /\
        pok reg p1 /\ forall x, pt_in x p1 <-> exists q, at_peer q x /\ in_scope cl ns q /\ (ytrue (yget sp "selector") = true -> endpoint_sel cl ns (yget sp "selector") x)).
      { destruct (ytrue (yget sp "selector")) eqn:Es.
        - assert (Bs : benign_sel (yget sp "selector")) by (destruct B1 as [B1|B1]; auto; rewrite B1 in Es; discriminate).
          assert (Nn : yget sp "selector" <> YNull) by (intros X; rewrite X in Es; discriminate).
          destruct (sel_spec cl Hc reg HC ns (yget sp "selector") Bs Nn) as (r & Er & Pr & _ & Mr). rewrite Er. cbn [meet bind].
          change (all_group cl) with (namespace_pods cl None).
          assert (NP0 : pok reg (namespace_pods cl None)) by (apply (plain_pok cl reg HC); [apply ns_pods_plain; auto|intros q Hq; apply (namespace_pods_In cl) in Hq as [Hq _]; auto]).
          destruct (inter_spec _ _ NP0 Pr) as (r' & Er' & Pr' & Mr'). exists r'. split; auto. split; auto.
          intros x. rewrite Mr', Mr, NM. split.
          + intros [_ H]. destruct H as (q & t & e & H1 & H2 & H3 & H4 & H5 & H6). exists q. split; auto. split; auto. intros _. exists q, t, e. auto 10.
          + intros (q & H1 & H2 & H3). split; auto. exists q. split; auto. destruct H2 as [H2 H4]. split; auto. apply (scope_not_dns cl Hc ns q). split; auto.
        - eexists. split; [reflexivity|]. split; auto. intros x. rewrite NM. split; intros (q & H1 & H2); exists q; [split; auto; split; auto; discriminate|tauto]. }
      destruct S1 as (p1 & E1 & P1 & M1). rewrite E1 in E. cbn [bind] in E. destruct (ytrue (yget sp "namespaceSelector")) eqn:En.
      + destruct (nssel_spec cl Hc Hk reg HC (yget sp "namespaceSelector") B2 En) as (r & Er & Pr & _ & Mr). rewrite Er in E. cbn [meet bind] in E.
        destruct (inter_spec _ _ P1 Pr) as (r' & Er' & Pr' & Mr'). rewrite Er' in E. injection E as <-. split; auto.
        intros x. rewrite Mr', M1, Mr, DS. split.
        * intros [(q & H1 & H2 & H3) H4]. exists q. split; auto. split; [apply H2|]. auto.
        * intros (q & H1 & H2 & H3 & H4 & H5). split; auto. exists q. auto.
      + injection E as <-. split; auto. intros x. rewrite M1, DS. split.
        * intros (q & H1 & H2 & H3). exists q. split; auto. split; [apply H2|]. split; auto. split; auto. discriminate.
        * intros (q & H1 & H2 & H3 & H4 & H5). exists q. auto. }
  destruct M as [M1 M2]. split; auto. split; auto. intros x H. apply M2, DS in H as (q & (k & i & -> & ->) & H & _). exact H.
Qed.

(** The i-th rule of the policy is the i-th rule entry. *)
Definition rule_of_entry (ns : option string) (ing : bool) (y : yaml) (e : yaml) (r : rule) : Prop :=
  exists m, e = YMap m /\ has_action m (r_action r) /\
    forall pt, space pt -> (pt @ r_props r <-> doc_selects cl profiles y (near reg ing pt) /\ crule_at ns m pt).
Lemma first_entry_match : forall ns ing y es rs pt a, Forall2 (rule_of_entry ns ing y) es rs -> space pt -> doc_selects cl profiles y (near reg ing pt) ->
  (first_match rs pt a <-> first_entry (fun m => crule_at ns m pt) es a).
Proof using.
  intros ns ing y es rs pt a F Sp Hs. split.
  - intros (pre & r & post & -> & Ea & NL & M & N). apply Forall2_app_inv_r in F as (pe & l & F1 & F2 & ->).
    inversion F2 as [|e r' qe ? (m & -> & Ha & X) F3]; subst. exists pe, m, qe. split; auto. split; auto. split; auto. split; [apply (X pt Sp); auto|].
    intros m' Hm' NL' Mm'. apply In_nth_error in Hm' as [i Hi].
    assert (G : forall es rs, Forall2 (rule_of_entry ns ing y) es rs -> In (YMap m') es -> exists r0, In r0 rs /\ rule_of_entry ns ing y (YMap m') r0).
    { clear. intros es rs G. induction G as [|e r es rs H G IH]; intros HI; [destruct HI|]. destruct HI as [->|HI]; [exists r; split; [left|]; auto|].
      destruct (IH HI) as (r0 & A1 & A2). exists r0. split; [right|]; auto. }
    destruct (G _ _ F1 (nth_error_In _ _ Hi)) as (r0 & R1 & m0 & E0 & R2 & R3). injection E0 as <-. apply (N r0 R1).
    + intros HL. apply NL'. rewrite <- HL. auto.
    + apply (R3 pt Sp). auto.
  - intros (pre & m & post & -> & Ha & NL & M & N). apply Forall2_app_inv_l in F as (pr & l & F1 & F2 & ->).
    inversion F2 as [|e r qe qr (m0 & E0 & Ha0 & X) F3]; subst. injection E0 as <-. pose proof (has_action_fn _ _ _ Ha Ha0) as ->.
    exists pr, r, qr. split; auto. split; auto. split; auto. split; [apply (X pt Sp); auto|].
    intros q Hq NLq Mq.
    assert (G : forall es rs, Forall2 (rule_of_entry ns ing y) es rs -> In q rs -> exists e, In e es /\ rule_of_entry ns ing y e q).
    { clear. intros es rs G. induction G as [|e r es rs H G IH]; intros HI; [destruct HI|]. destruct HI as [->|HI]; [exists e; split; [left|]; auto|].
      destruct (IH HI) as (r0 & A1 & A2). exists r0. split; [right|]; auto. }
    destruct (G _ _ F1 Hq) as (e & E1 & m1 & -> & H1 & H2). apply (N m1 E1); [|apply (H2 pt Sp); auto].
    intros HL. apply NLq. apply (has_action_fn _ _ _ H1 HL).
Qed.
Lemma mapM_Forall2 : forall X Y (f : X -> option Y) (P : X -> Y -> Prop) l r, (forall x z, In x l -> f x = Some z -> P x z) -> mapM f l = Some r -> Forall2 P l r.
Proof using.
  intros X Y f P. induction l as [|a l IH]; intros r H E; cbn [mapM] in E; [injection E as <-; constructor|].
  destruct (f a) as [b|] eqn:Eb; [|discriminate]. cbn [bind] in E. destruct (mapM f l) as [bs|]; [|discriminate]. cbn [bind] in E. injection E as <-.
  constructor; [apply H; auto; left; auto|]. apply IH; auto. intros x z Hx. apply H. right. auto.
Qed.
Lemma cpolicy_spec : forall y p, parse y = Some (Some p) -> benign_cdoc y ->
  is_calico p /\ policy_wf std_dom std_rest reg p /\ confined std_dom reg (cl_peers cl) p /\
  (forall x, pt_in x (p_selected p) <-> doc_selects cl profiles y x) /\
  (forall ing x, selects p ing x <-> capplies_to cl profiles y ing x) /\
  (forall kind name ns sp ing, cdoc y kind name ns sp -> Forall2 (rule_of_entry ns ing y) (rules_in sp ing) (rules_of p ing)).
Proof using R Hc Hk HC Hp Hnet.
  intros y p E B. destruct (calico_policy_inv cl net profiles A mk y p E) as (kind & name & ns & sp & fl & D & Hkind & E1 & E2 & E3 & E4 & E5 & E6 & E7 & E8).
  destruct (B kind name ns sp D) as (B1 & B2 & B3 & B4). destruct (selected_spec y kind name ns sp (p_selected p) D E6 B2 B3) as (Ps & Ms & Mb).
  destruct (affects_cabout sp fl E3 B1) as [F1 F2].
  assert (IC : is_calico p) by (unfold is_calico; rewrite E2; destruct Hkind as [<-|[<-|[<-|[]]]]; cbn; auto).
  assert (SP : forall ing e r, In e (rules_in sp ing) -> calico_rule cl net A mk ns ing (p_selected p) e = Some r ->
    (exists m, e = YMap m /\ has_action m (r_action r) /\ a_ok std_dom std_rest (r_props r) /\ regular_conns (r_props r) /\
       forall pt, space pt -> (pt @ r_props r <-> doc_selects cl profiles y (near reg ing pt) /\ crule_at ns m pt))).
  { intros ing e r He Er. assert (Em : exists m, e = YMap m).
    { unfold calico_rule in Er. destruct (check_fields e rule_fields) as [m|] eqn:Ec; [|discriminate]. apply check_fields_map in Ec as [-> _]. eauto. }
    destruct Em as [m ->]. exists m. split; auto. destruct (B4 ing m He) as [Bm Bx].
    destruct (crule_spec reg R cl Hc Hk HC Hp net Hnet ns ing (p_selected p) m r Ps Er Bm) as (X1 & X2 & X3 & X4).
    assert (X5 : forall pt, space pt -> (pt @ r_props r <-> doc_selects cl profiles y (near reg ing pt) /\ crule_at ns m pt)).
    { intros pt Sp. rewrite (X4 pt Sp), Ms. unfold near, crule_at. tauto. }
    split; auto. split; auto. split; auto. apply X3. destruct Bx as [Bx|(pt & H1 & H2)]; [left; auto|]. right. exists pt. split; auto. apply (X5 pt H1). auto. }
  assert (FR : forall ing, Forall2 (rule_of_entry ns ing y) (rules_in sp ing) (rules_of p ing)).
  { intros ing. apply (mapM_Forall2 _ _ (calico_rule cl net A mk ns ing (p_selected p))); [|apply E8]. intros e r He Er.
    destruct (SP ing e r He Er) as (m & H1 & H2 & _ & _ & H3). exists m. auto. }
  assert (RS : forall ing r, In r (rules_of p ing) -> exists e, In e (rules_in sp ing) /\ calico_rule cl net A mk ns ing (p_selected p) e = Some r).
  { intros ing r Hr. apply (mapM_In _ _ _ (E8 ing)) in Hr. exact Hr. }
  assert (CF : forall ing r pt, space pt -> In r (rules_of p ing) -> pt @ r_props r -> pt_in (near reg ing pt) (p_selected p)).
  { intros ing r pt Sp Hr M. destruct (RS ing r Hr) as (e & He & Er). destruct (SP ing e r He Er) as (m & _ & _ & _ & _ & X). apply Ms. apply (X pt Sp). auto. }
  split; auto. split; [|split; [|split; [|split]]].
  - apply policy_wf_regular; auto. intros r Hr. assert (X : exists ing, In r (rules_of p ing)) by (apply in_app_or in Hr as [Hr|Hr]; [exists true|exists false]; auto).
    destruct X as (ing & Hi). destruct (RS ing r Hi) as (e & He & Er). destruct (SP ing e r He Er) as (m & _ & _ & O1 & O2 & _). split; [exact O1|].
    destruct O2 as [O2|O2]; [right; exact O2|left; exact O2].
  - split; [|split].
    + intros r pt Sp Hr M. exact (CF true r pt Sp Hr M).
    + intros r pt Sp Hr M. exact (CF false r pt Sp Hr M).
    + exact Mb.
  - exact Ms.
  - intros ing x. unfold selects, capplies_to. rewrite Ms.
    assert (FL : match p_kind p with
                 | TIstioAP => ing = true | TSidecar => ing = false /\ p_affects_eg p = true
                 | TK8s | TCalico | TCalicoGlobal | TCalicoProfile | TIngress | TGatewayPolicy => if ing then p_affects_in p = true else p_affects_eg p = true
                 | _ => False end <-> cabout sp ing).
    { rewrite E4, E5. destruct IC as [->|[->| ->]]; destruct ing; auto. }
    rewrite FL. split; [intros [H1 H2]; split; auto; exists kind, name, ns, sp; auto|].
    intros [H1 (k & n & s & sp' & D' & H2)]. destruct (cdoc_fn _ _ _ _ _ _ _ _ _ D D') as (-> & -> & -> & ->). auto.
  - intros k n s sp' ing D'. destruct (cdoc_fn _ _ _ _ _ _ _ _ _ D D') as (-> & -> & -> & ->). auto.
Qed.
(** The policy selects exactly the endpoints the document applies to, per direction. *)
Theorem C51_selected_endpoints : forall y p, parse y = Some (Some p) -> benign_cdoc y -> forall ing x, selects p ing x <-> capplies_to cl profiles y ing x.
Proof using R Hc Hk HC Hp Hnet. intros y p E B. apply (cpolicy_spec y p E B). Qed.
(** For a connection whose local side is such an endpoint, the first matching rule of the policy is the one of the document. *)
Lemma cpolicy_says : forall y p, parse y = Some (Some p) -> benign_cdoc y -> forall ing pt a, space pt -> doc_selects cl profiles y (near reg ing pt) ->
  (first_match (rules_of p ing) pt a <-> cdoc_says y ing pt a).
Proof using R Hc Hk HC Hp Hnet.
  intros y p E B ing pt a Sp S. destruct (cpolicy_spec y p E B) as (_ & _ & _ & _ & _ & F).
  destruct (calico_policy_inv cl net profiles A mk y p E) as (kind & name & ns & sp & fl & D & _).
  rewrite (first_entry_match ns ing y _ _ pt a (F kind name ns sp ing D) Sp S). unfold cdoc_says. split.
  - intros H. exists kind, name, ns, sp. auto.
  - intros (k & n & s & sp' & D' & H). destruct (cdoc_fn _ _ _ _ _ _ _ _ _ D D') as (-> & -> & -> & ->). auto.
Qed.
Theorem C51_first_rule_entry : forall y p, parse y = Some (Some p) -> benign_cdoc y -> forall ing pt a, space pt -> capplies_to cl profiles y ing (near reg ing pt) ->
  (first_match (rules_of p ing) pt a <-> cdoc_says y ing pt a).
Proof using R Hc Hk HC Hp Hnet. intros y p E B ing pt a Sp [S _]. apply cpolicy_says; auto. Qed.
(** Without Pass rules, what allowed_connections computes for the policy. *)
Definition no_pass_entries (y : yaml) : Prop := forall kind name ns sp ing m, cdoc y kind name ns sp -> In (YMap m) (rules_in sp ing) -> ~ has_action m Pass.
Lemma no_pass_rules : forall y p, parse y = Some (Some p) -> benign_cdoc y -> no_pass_entries y -> forall ing r, In r (rules_of p ing) -> r_action r <> Pass.
Proof using R Hc Hk HC Hp Hnet.
  intros y p E B N ing r Hr HP. destruct (cpolicy_spec y p E B) as (_ & _ & _ & _ & _ & F).
  destruct (calico_policy_inv cl net profiles A mk y p E) as (kind & name & ns & sp & fl & D & _). pose proof (F kind name ns sp ing D) as G.
  assert (X : exists e, In e (rules_in sp ing) /\ rule_of_entry ns ing y e r).
  { clear - G Hr. induction G as [|e r' es rs H F IH]; [destruct Hr|]. destruct Hr as [->|Hr]; [exists e; split; [left|]; auto|].
    destruct (IH Hr) as (e' & A1 & A2). exists e'. split; [right|]; auto. }
  destruct X as (e & He & m & -> & Ha & _). apply (N kind name ns sp ing m D He). rewrite <- HP. exact Ha.
Qed.
Theorem C51_allowed_denied_passed : forall y p, parse y = Some (Some p) -> benign_cdoc y -> no_pass_entries y ->
  forall ing pt, space pt -> capplies_to cl profiles y ing (near reg ing pt) ->
  let r := policy_conns A p ing in
  (pt @ allowed r <-> cdoc_says y ing pt Allow) /\ (pt @ denied r <-> cdoc_says y ing pt Deny) /\ ~ pt @ passed r.
Proof using R Hc Hk HC Hp Hnet.
  intros y p E B N ing pt Sp S. cbv zeta. destruct (cpolicy_spec y p E B) as (IC & W & _).
  destruct (C20_first_match std_dom std_rest reg reg std_peers [Ivl 0 255] K p ing W IC (or_introl (no_pass_rules y p E B N ing)) pt Sp) as (X1 & X2 & X3 & _).
  rewrite <- !(C51_first_rule_entry y p E B ing pt _ Sp S). split; [exact X1|]. split; [exact X2|]. intros H. apply X3 in H.
  destruct H as (pre & r & post & Er & Ha & _). apply (no_pass_rules y p E B N ing r); auto. rewrite Er. apply in_or_app. right. left. auto.
Qed.

(** ** C52: Kubernetes and Calico documents together *)
Context (Hempty : net (YStr "") = None).
Inductive document : Type := K8sDoc (y : yaml) | CalicoDoc (y : yaml).
Definition parse_doc (d : document) : option (option policy) :=
  match d with K8sDoc y => parse_policy cl net A (port_conns reg cl) y | CalicoDoc y => parse y end.
Definition doc_benign (d : document) : Prop := match d with K8sDoc y => benign cl y | CalicoDoc y => benign_cdoc y end.
(** The document applies to the endpoint. *)
Definition doc_applies (d : document) (ing : bool) (x : point) : Prop :=
  match d with K8sDoc y => applies_to cl y ing x | CalicoDoc y => capplies_to cl profiles y ing x end.
(** Its verdict: a Kubernetes policy allows what some rule matches; a Calico policy says what its first matching rule says. *)
Definition doc_says (d : document) (ing : bool) (pt : conn) (a : action) : Prop :=
  match d with K8sDoc y => a = Allow /\ allows reg cl net y ing pt | CalicoDoc y => cdoc_says y ing pt a end.
(** The first document that applies to the local side and has a verdict. *)
Definition doc_verdict (docs : list document) (ing : bool) (pt : conn) (a : action) : Prop :=
  exists pre d post, docs = pre ++ d :: post /\ doc_applies d ing (near reg ing pt) /\ doc_says d ing pt a /\
    forall e b, In e pre -> doc_applies e ing (near reg ing pt) -> ~ doc_says e ing pt b.
(** One side of a connection: an IP address (talking to a pod or host endpoint); a host endpoint that explicitly allows it; or
    a pod to which no document applies, or whose first verdict is Allow or Pass. *)
Definition doc_side (docs : list document) (ing : bool) (pt : conn) : Prop :=
  let x := near reg ing pt in
  (is_addr x /\ member (cl_peers cl) (far reg ing pt) /\ ~ named_dns (far reg ing pt)) \/
  (member (cl_peers cl) x /\ named_hep x /\ doc_verdict docs ing pt Allow) \/
  (member (cl_peers cl) x /\ ~ named_hep x /\
   ((forall d, In d docs -> ~ doc_applies d ing x) \/ doc_verdict docs ing pt Allow \/ doc_verdict docs ing pt Pass)).
(** No Pass rules; or no rule entry, and no verdict of a document, is entirely shadowed by the ones before it (F5). *)
Definition no_pass_docs (docs : list document) : Prop := forall y, In (CalicoDoc y) docs -> no_pass_entries y.
Definition entries_not_shadowed (y : yaml) (ing : bool) : Prop :=
  forall kind name ns sp, cdoc y kind name ns sp -> forall pre m post, rules_in sp ing = pre ++ YMap m :: post -> ~ has_action m Log ->
  exists pt, space pt /\ doc_selects cl profiles y (near reg ing pt) /\ crule_at ns m pt /\
    forall m', In (YMap m') pre -> ~ has_action m' Log -> ~ crule_at ns m' pt.
Definition docs_not_shadowed (docs : list document) : Prop := forall ing,
  (forall y, In (CalicoDoc y) docs -> entries_not_shadowed y ing) /\
  forall pre d post, docs = pre ++ d :: post -> forall a,
    (exists pt, space pt /\ doc_applies d ing (near reg ing pt) /\ doc_says d ing pt a /\
       forall e b, In e pre -> doc_applies e ing (near reg ing pt) -> ~ doc_says e ing pt b) \/
    (forall pt, space pt -> doc_applies d ing (near reg ing pt) -> ~ doc_says d ing pt a).
Lemma doc_policy : forall d p, parse_doc d = Some (Some p) -> doc_benign d ->
  policy_wf std_dom std_rest reg p /\ confined std_dom reg (cl_peers cl) p /\
  (forall ing x, selects p ing x <-> doc_applies d ing x) /\
  (forall ing pt a, space pt -> doc_applies d ing (near reg ing pt) -> (opinion p ing pt a <-> doc_says d ing pt a)).
Proof using R Hc Hk HC Hp Hnet Hempty.
  intros [y|y] p E B; cbn [parse_doc doc_benign doc_applies doc_says] in *.
  - destruct (policy_spec reg R cl Hc HC Hp net Hnet Hempty y p E B) as (X1 & X2 & X3 & X4 & X5). split; auto. split; auto. split; auto.
    intros ing pt a Sp S. unfold opinion. rewrite X1, (X5 ing pt Sp); [tauto|]. apply X4. exact S.
  - destruct (cpolicy_spec y p E B) as (X1 & X2 & X3 & X4 & X5 & _). split; auto. split; auto. split; auto.
    intros ing pt a Sp S. rewrite <- (C51_first_rule_entry y p E B ing pt a Sp S). unfold opinion. destruct X1 as [->|[->| ->]]; tauto.
Qed.
Lemma pair_split_r : forall (docs : list document) (pols : list policy) (P : document -> policy -> Prop), Forall2 P docs pols ->
  forall pre p post, pols = pre ++ p :: post -> exists dpre d dpost, docs = dpre ++ d :: dpost /\ P d p /\ Forall2 P dpre pre /\ Forall2 P dpost post.
Proof using.
  intros docs pols P F pre p post ->. apply Forall2_app_inv_r in F as (a & b & F1 & F2 & ->). inversion F2 as [|d ? c ? H F3]; subst. exists a, d, c. auto.
Qed.
Lemma pair_split_l : forall (docs : list document) (pols : list policy) (P : document -> policy -> Prop), Forall2 P docs pols ->
  forall dpre d dpost, docs = dpre ++ d :: dpost -> exists pre p post, pols = pre ++ p :: post /\ P d p /\ Forall2 P dpre pre /\ Forall2 P dpost post.
Proof using.
  intros docs pols P F pre p post ->. apply Forall2_app_inv_l in F as (a & b & F1 & F2 & ->). inversion F2 as [|? d ? c H F3]; subst. exists a, d, c. auto.
Qed.
Lemma pair_In_r : forall (docs : list document) (pols : list policy) (P : document -> policy -> Prop), Forall2 P docs pols -> forall p, In p pols -> exists d, In d docs /\ P d p.
Proof using.
  intros docs pols P F p H. apply in_split in H as (a & b & E). destruct (pair_split_r _ _ _ F a p b E) as (x & d & z & -> & H & _).
  exists d. split; auto. apply in_or_app. right. left. auto.
Qed.
Lemma pair_In_l : forall (docs : list document) (pols : list policy) (P : document -> policy -> Prop), Forall2 P docs pols -> forall d, In d docs -> exists p, In p pols /\ P d p.
Proof using.
  intros docs pols P F p H. apply in_split in H as (a & b & E). destruct (pair_split_l _ _ _ F a p b E) as (x & d & z & -> & H & _).
  exists d. split; auto. apply in_or_app. right. left. auto.
Qed.
Section Set_of_docs.
Context (docs : list document) (pols : list policy) (F : Forall2 (fun d p => parse_doc d = Some (Some p)) docs pols).
Context (B : forall d, In d docs -> doc_benign d).
Lemma doc_verdict_iff : forall ing pt a, space pt -> (verdict reg pols ing pt a <-> doc_verdict docs ing pt a).
Proof using R Hc Hk HC Hp Hnet Hempty F B.
  intros ing pt a Sp. unfold verdict, doc_verdict. fold (near reg ing pt). split.
  - intros (pre & p & post & Ep & S & O & N). destruct (pair_split_r _ _ _ F pre p post Ep) as (dpre & d & dpost & Ed & Pd & F1 & _).
    assert (Bd : doc_benign d) by (apply B; rewrite Ed; apply in_or_app; right; left; auto). destruct (doc_policy d p Pd Bd) as (_ & _ & X3 & X4).
    assert (S' : doc_applies d ing (near reg ing pt)) by (apply X3; exact S). exists dpre, d, dpost. split; auto. split; auto. split; [apply (X4 ing pt a Sp S'); auto|].
    intros e b He Se Oe. destruct (pair_In_l _ _ _ F1 e He) as (q & Hq & Pq). assert (Be : doc_benign e) by (apply B; rewrite Ed; apply in_or_app; auto).
    destruct (doc_policy e q Pq Be) as (_ & _ & Y3 & Y4). apply (N q b Hq); [apply Y3; exact Se|apply (Y4 ing pt b Sp Se); auto].
  - intros (dpre & d & dpost & Ed & S & O & N). destruct (pair_split_l _ _ _ F dpre d dpost Ed) as (pre & p & post & Ep & Pd & F1 & _).
    assert (Bd : doc_benign d) by (apply B; rewrite Ed; apply in_or_app; right; left; auto). destruct (doc_policy d p Pd Bd) as (_ & _ & X3 & X4).
    exists pre, p, post. split; auto. split; [apply X3; exact S|]. split; [apply (X4 ing pt a Sp S); auto|].
    intros q b Hq Sq Oq. destruct (pair_In_r _ _ _ F1 q Hq) as (e & He & Pq). assert (Be : doc_benign e) by (apply B; rewrite Ed; apply in_or_app; auto).
    destruct (doc_policy e q Pq Be) as (_ & _ & Y3 & Y4). apply Y3 in Sq. apply (N e b He Sq). apply (Y4 ing pt b Sp Sq); auto.
Qed.
Lemma doc_side_iff : forall ing pt, space pt -> (side_allows reg (cl_peers cl) pols ing pt <-> doc_side docs ing pt).
Proof using R Hc Hk HC Hp Hnet Hempty F B.
  intros ing pt Sp. unfold side_allows, doc_side. cbv zeta. fold (near reg ing pt) (far reg ing pt). rewrite !(doc_verdict_iff ing pt _ Sp).
  assert (X : ~ selected_by pols ing (near reg ing pt) <-> forall d, In d docs -> ~ doc_applies d ing (near reg ing pt)).
  { split.
    - intros N d Hd Sd. apply N. destruct (pair_In_l _ _ _ F d Hd) as (p & Hq & Pq). exists p. split; auto.
      destruct (doc_policy d p Pq (B d Hd)) as (_ & _ & X3 & _). apply X3. auto.
    - intros N (p & Hq & S). destruct (pair_In_r _ _ _ F p Hq) as (d & Hd & Pq). destruct (doc_policy d p Pq (B d Hd)) as (_ & _ & X3 & _).
      apply (N d Hd). apply X3. auto. }
  rewrite X. tauto.
Qed.
Lemma docs_exact_policies : no_pass_docs docs \/ docs_not_shadowed docs -> exact_policies std_dom std_rest reg pols.
Proof using R Hc Hk HC Hp Hnet Hempty F B.
  intros HX. split.
  - intros p H. destruct (pair_In_r _ _ _ F p H) as (d & Hd & Pd). apply (doc_policy d p Pd (B d Hd)).
  - destruct HX as [HX|HX]; [left|right].
    + intros p H IC r Hr. destruct (pair_In_r _ _ _ F p H) as ([y|y] & Hd & Pd); cbn [parse_doc] in Pd; pose proof (B _ Hd) as Bd; cbn [doc_benign] in Bd.
      * exfalso. destruct (policy_spec reg R cl Hc HC Hp net Hnet Hempty y p Pd Bd) as (X1 & _). unfold is_calico in IC. rewrite X1 in IC. destruct IC as [X|[X|X]]; discriminate.
      * apply in_app_or in Hr as [Hr|Hr]; [apply (no_pass_rules y p Pd Bd (HX y Hd) true r Hr)|apply (no_pass_rules y p Pd Bd (HX y Hd) false r Hr)].
    + intros ing. destruct (HX ing) as [H1 H2]. split.
      * intros p H IC. right. destruct (pair_In_r _ _ _ F p H) as ([y|y] & Hd & Pd); cbn [parse_doc] in Pd; pose proof (B _ Hd) as Bd; cbn [doc_benign] in Bd.
        { exfalso. destruct (policy_spec reg R cl Hc HC Hp net Hnet Hempty y p Pd Bd) as (X1 & _). unfold is_calico in IC. rewrite X1 in IC. destruct IC as [X|[X|X]]; discriminate. }
        destruct (cpolicy_spec y p Pd Bd) as (_ & _ & _ & _ & _ & FR). destruct (calico_policy_inv cl net profiles A mk y p Pd) as (kind & name & ns & sp & fl & D & _).
        specialize (FR kind name ns sp ing D). intros pre r post Er NL. rewrite Er in FR. apply Forall2_app_inv_r in FR as (pe & l & F1 & F2 & El).
        inversion F2 as [|e r' qe ? (m & -> & Ha & X) F3]; subst.
        destruct (H1 y Hd kind name ns sp D pe m qe El) as (pt & Sp & S & M & N); [intros HL; apply NL; apply (has_action_fn _ _ _ Ha HL)|].
        exists pt. split; auto. split; [apply (X pt Sp); auto|]. intros q Hq NLq Mq.
        assert (G : forall es rs, Forall2 (rule_of_entry ns ing y) es rs -> In q rs -> exists e, In e es /\ rule_of_entry ns ing y e q).
        { clear. intros es rs G. induction G as [|e r es rs H G IH]; intros HI; [destruct HI|]. destruct HI as [->|HI]; [exists e; split; [left|]; auto|].
          destruct (IH HI) as (r0 & A1 & A2). exists r0. split; [right|]; auto. }
        destruct (G _ _ F1 Hq) as (e & E1 & m1 & -> & G1 & G2). apply (N m1 E1); [|apply (G2 pt Sp); auto].
        intros HL. apply NLq. apply (has_action_fn _ _ _ G1 HL).
      * intros pre p post Ep CS a. destruct (pair_split_r _ _ _ F pre p post Ep) as (dpre & d & dpost & Ed & Pd & F1 & _).
        assert (Bd : doc_benign d) by (apply B; rewrite Ed; apply in_or_app; right; left; auto). destruct (doc_policy d p Pd Bd) as (_ & X2 & X3 & X4).
        assert (OS : forall q e, confined std_dom reg (cl_peers cl) q -> (forall x, selects q ing x <-> doc_applies e ing x) -> captures_some q ing -> forall pt b, space pt -> opinion q ing pt b -> doc_applies e ing (near reg ing pt)).
        { intros q e Cq Sq CSq pt b Sp O. apply Sq. exact (opinion_selects std_dom reg (cl_peers cl) q ing pt b Cq Sp CSq O). }
        destruct (H2 dpre d dpost Ed a) as [(pt & Sp & S & O & N)|N].
        { left. exists pt. split; auto. split; [apply (X4 ing pt a Sp S); auto|]. intros q b Hq CSq Oq.
          destruct (pair_In_r _ _ _ F1 q Hq) as (e & He & Pe). assert (Be : doc_benign e) by (apply B; rewrite Ed; apply in_or_app; auto).
          destruct (doc_policy e q Pe Be) as (_ & Y2 & Y3 & Y4). assert (Se : doc_applies e ing (near reg ing pt)) by (apply (OS q e Y2 (Y3 ing) CSq pt b Sp Oq)).
          apply (N e b He Se). apply (Y4 ing pt b Sp Se). auto. }
        { right. intros pt Sp O. assert (S : doc_applies d ing (near reg ing pt)) by (apply (OS p d X2 (X3 ing) CS pt a Sp O)).
          apply (N pt Sp S). apply (X4 ing pt a Sp S). auto. }
Qed.
(** The connections the K8s/Calico layer of these documents allows, between pods, host endpoints and IP addresses. *)
Theorem C52_allowed_connections : no_pass_docs docs \/ docs_not_shadowed docs -> forall f, f_all f = true ->
  forall pt, space pt -> pod_or_ip (cl_peers cl) (from pt) -> pod_or_ip (cl_peers cl) (to pt) ->
  (pt @ all_allowed (layer_conns A LK8sCalico (cl_peers cl) pols f) <-> doc_side docs true pt /\ doc_side docs false pt).
Proof using R Hc Hk HC Hp Hnet Hempty F B.
  intros HX f Hf pt Sp H1 H2. pose proof (docs_exact_policies HX) as X1.
  assert (X2 : forall p, In p pols -> confined std_dom reg (cl_peers cl) p) by (intros p H; destruct (pair_In_r _ _ _ F p H) as (d & Hd & Pd); apply (doc_policy d p Pd (B d Hd))).
  refine (iff_trans (C24_k8s_calico_layer std_dom std_rest reg reg std_peers [Ivl 0 255] K (cl_peers cl) HC pols f X1 X2 Hf pt Sp H1 H2) _).
  rewrite (doc_side_iff true pt Sp), (doc_side_iff false pt Sp). tauto.
Qed.
(** ... and the configuration consisting of these documents. *)
Theorem C52_allowed_by_configuration : no_pass_docs docs \/ docs_not_shadowed docs ->
  forall pt, space pt -> pod_or_ip (cl_peers cl) (from pt) -> pod_or_ip (cl_peers cl) (to pt) ->
  (pt @ all_allowed (config_conns A (cl_peers cl) [(LK8sCalico, pols)] only_all_allowed) <-> doc_side docs true pt /\ doc_side docs false pt).
Proof using R Hc Hk HC Hp Hnet Hempty F B.
  intros HX pt Sp H1 H2. pose proof (docs_exact_policies HX) as X1.
  assert (LE : layers_exact std_dom std_rest reg [(LK8sCalico, pols)]) by (intros n q [E|[]]; injection E as <- <-; exact X1).
  refine (iff_trans (C26_all_allowed_is_the_intersection std_dom std_rest reg reg std_peers [Ivl 0 255] K (cl_peers cl) HC _ LE pt Sp H1 H2) _).
  rewrite <- (C52_allowed_connections HX only_all_allowed eq_refl pt Sp H1 H2). split.
  - intros [X _]. apply X. left; reflexivity.
  - intros X. split; [|discriminate]. intros n q [E|[]]. injection E as <- <-. exact X.
Qed.
End Set_of_docs.

(** The order of a document: 1000 for Kubernetes policies, the order field for Calico policies (none: after all others). *)
Definition doc_order (d : document) (o : option Z) : Prop :=
  match d with
  | K8sDoc _ => o = Some 1000%Z
  | CalicoDoc y => exists kind name ns sp, cdoc y kind name ns sp /\
      ((yget sp "order" = YNull /\ o = None) \/ exists n, yint (yget sp "order") = Some n /\ o = Some n)
  end.
Lemma doc_rank : forall d p o, parse_doc d = Some (Some p) -> (rank p = o <-> doc_order d o).
Proof using.
  intros [y|y] p o E; cbn [parse_doc doc_order] in *.
  - destruct (parse_policy_inv cl net A _ y p E) as (_ & _ & _ & Kd & _). unfold rank. rewrite Kd. cbn. split; congruence.
  - destruct (calico_policy_inv cl net profiles A mk y p E) as (kind & name & ns & sp & fl & D & _).
    destruct (C51_kind_and_order cl net profiles A mk y p kind name ns sp E D) as (_ & _ & _ & _ & _ & X1 & X2). split.
    + intros <-. exists kind, name, ns, sp. split; auto. destruct (rank p) as [n|] eqn:Er; [right; exists n; split; auto; apply X2; auto|left; split; auto; apply X1; auto].
    + intros (k & n & s & sp' & D' & H). destruct (cdoc_fn _ _ _ _ _ _ _ _ _ D D') as (-> & -> & -> & ->).
      destruct H as [[H ->]|(z & H & ->)]; [apply X1; auto|apply X2; auto].
Qed.
Lemma doc_layer : forall d p, parse_doc d = Some (Some p) -> layer_of_type (p_kind p) = Some LK8sCalico /\ p_kind p <> TUnknown.
Proof using.
  intros [y|y] p E; cbn [parse_doc] in E.
  - destruct (parse_policy_inv cl net A _ y p E) as (_ & _ & _ & -> & _). split; [reflexivity|discriminate].
  - destruct (calico_policy_inv cl net profiles A mk y p E) as (kind & name & ns & sp & fl & _ & H & _ & -> & _).
    destruct H as [<-|[<-|[<-|[]]]]; split; try reflexivity; discriminate.
Qed.
(** Adding the policies of documents with different names or kinds, in any order: the configuration has a single layer, which
    holds the policies of all the documents, sorted by their order. *)
Lemma added_all : forall pols, (forall p : policy, In p pols -> layer_of_type (p_kind p) = Some LK8sCalico /\ p_kind p <> TUnknown) ->
  NoDup (map (fun p => (full_name p, p_kind p)) pols) ->
  let c := add_all pcont_init pols in map snd (policies c) = pols /\ lays c = [(LK8sCalico, layer_list c LK8sCalico)].
Proof using.
  induction pols as [|p pols IH] using rev_ind; intros HL ND; [split; reflexivity|]. cbv zeta in *.
  assert (ND' : NoDup (map (fun p => (full_name p, p_kind p)) pols) /\ ~ In (full_name p, p_kind p) (map (fun p => (full_name p, p_kind p)) pols)).
  { rewrite map_app in ND. cbn [map] in ND. apply NoDup_remove in ND. rewrite app_nil_r in ND. exact ND. }
  destruct IH as [I1 I2]; [intros q Hq; apply HL; apply in_or_app; auto|tauto|].
  assert (Ea : add_all pcont_init (pols ++ [p]) = match append_policy (add_all pcont_init pols) p with Some c' => c' | None => add_all pcont_init pols end) by (unfold add_all; rewrite fold_left_app; reflexivity).
  rewrite Ea. destruct (C27_append pols p) as [C1 C2]. destruct (HL p) as [L1 L2]; [apply in_or_app; right; left; auto|].
  destruct (append_policy (add_all pcont_init pols) p) as [c'|] eqn:Ep.
  - split; [rewrite (C2 c' eq_refl), I1; auto|]. unfold append_policy in Ep. destruct (ptype_eqb _ _); [discriminate|]. destruct (existsb _ _); [discriminate|].
    rewrite L1 in Ep. set (l := layer_list (add_all pcont_init pols) LK8sCalico) in *. rewrite I2 in Ep. unfold layers_add in Ep. cbn [lget find fst snd lname_eqb] in Ep.
    destruct (insort l p) as [l'|] eqn:Ei; [|discriminate]. cbn [lset fst lname_eqb lget find snd] in Ep.
    assert (N : exists a l'', l' = a :: l'').
    { unfold insort in Ei. destruct (bisect _ _ _ _ _) as [i|]; [|discriminate]. injection Ei as <-. destruct (firstn i l) as [|a t]; eexists; eexists; reflexivity. }
    destruct N as (a & l'' & ->). injection Ep as <-. reflexivity.
  - exfalso. destruct (proj1 C1 eq_refl) as [H|(q & H1 & H2 & H3)]; [congruence|]. destruct ND' as [_ ND']. apply ND'.
    rewrite I1 in H1. rewrite <- H2, <- H3. apply (in_map (fun p => (full_name p, p_kind p)) _ _ H1).
Qed.
Theorem C52_documents_in_order : forall docs pols, Forall2 (fun d p => parse_doc d = Some (Some p)) docs pols -> (forall d, In d docs -> doc_benign d) ->
  NoDup (map (fun p => (full_name p, p_kind p)) pols) ->
  exists sorted, Permutation docs sorted /\
    (forall i j d e o o', i <= j -> nth_error sorted i = Some d -> nth_error sorted j = Some e -> doc_order d o -> doc_order e o' -> rank_le o o') /\
    (no_pass_docs docs \/ docs_not_shadowed sorted ->
     forall pt, space pt -> pod_or_ip (cl_peers cl) (from pt) -> pod_or_ip (cl_peers cl) (to pt) ->
     (pt @ all_allowed (config_conns A (cl_peers cl) (lays (add_all pcont_init pols)) only_all_allowed) <-> doc_side sorted true pt /\ doc_side sorted false pt)).
Proof using R Hc Hk HC Hp Hnet Hempty.
  intros docs pols F B ND.
  assert (HL : forall p, In p pols -> layer_of_type (p_kind p) = Some LK8sCalico /\ p_kind p <> TUnknown).
  { intros p H. destruct (pair_In_r _ _ _ F p H) as (d & _ & E). exact (doc_layer d p E). }
  destruct (added_all pols HL ND) as [E1 E2]. set (l := layer_list (add_all pcont_init pols) LK8sCalico) in *.
  assert (P : Permutation pols l).
  { pose proof (C22_layer_holds_its_policies pols LK8sCalico) as P. cbv zeta in P. fold l in P. rewrite E1 in P. apply Permutation_sym.
    assert (Ef : filter (of_layer LK8sCalico) pols = pols); [|rewrite Ef in P; exact P].
    clear - HL. induction pols as [|p t IH]; auto. cbn [filter]. unfold of_layer at 1. rewrite (proj1 (HL p (or_introl eq_refl))). cbn. rewrite IH; auto.
    intros q Hq. apply HL. right. auto. }
  assert (S : exists sorted, Permutation docs sorted /\ Forall2 (fun d p => parse_doc d = Some (Some p)) sorted l).
  { assert (F' : Forall2 (fun p d => parse_doc d = Some (Some p)) pols docs) by (clear - F; induction F; constructor; auto).
    destruct (Permutation_Forall2 P F') as (sd & P1 & F1). exists sd. split; auto. clear - F1. induction F1; constructor; auto. }
  destruct S as (sorted & P1 & F1). exists sorted. split; auto.
  assert (B1 : forall d, In d sorted -> doc_benign d) by (intros d H; apply B; apply (Permutation_in d (Permutation_sym P1)); auto). split.
  - intros i j d e o o' Hij Hi Hj Ho Ho'.
    assert (NT : forall k x, nth_error sorted k = Some x -> exists q, nth_error l k = Some q /\ parse_doc x = Some (Some q)).
    { clear - F1. intros k x H. revert k H. induction F1 as [|x' q xs qs E F IH]; intros [|k] H; cbn in H; try discriminate; [injection H as <-; exists q; split; auto; reflexivity|].
      destruct (IH k H) as (q' & H1 & H2). exists q'. auto. }
    destruct (NT i d Hi) as (p & Np & Ep). destruct (NT j e Hj) as (q & Nq & Eq). apply (doc_rank d p o Ep) in Ho. apply (doc_rank e q o' Eq) in Ho'. subst o o'.
    exact (C22_sorted_by_order pols i j p q Hij Np Nq).
  - intros HX. rewrite E2. apply (C52_allowed_by_configuration sorted l F1 B1). destruct HX as [HX|HX]; auto. left. intros y Hy. apply HX.
    apply (Permutation_in _ (Permutation_sym P1)). auto.
Qed.
End Meaning.
