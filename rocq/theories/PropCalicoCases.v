(** * Concrete Calico documents: the theorems of PropCalicoParser.v apply to them; and rules for which C39 fails without its
    conditions (findings F9, F11, F12, F49-F53). *)
From Coq Require Import ZArith List Bool Arith Lia String Ascii.
From Verif Require Import IntervalModel IntervalFacts HyperModel HyperFacts HyperOps HyperDims HyperTop HyperInst
                          PropHyperCube ConnModel ConnFacts TextModel TextFacts PortProtoModel PortProtoFacts PeerModel PeerFacts PeerSetFacts
                          PolicyModel PolicyLaws PolicyFacts LayerFacts OrderFacts ConnAlg StdDims PropLayers YamlModel ClusterModel K8sParserModel SelectorFacts
                          ConnDict NamedExcl PropSelectors K8sParserFacts PropK8sParser CalicoSelectorModel CalicoSelectorFacts CalicoSelectorGram
                          CalicoSelectorSets CalicoParserModel CalicoParserFacts CalicoRuleFacts PropCalicoSelectors PropCalicoParser.
From Verif Require PropQueryCases.
Import ListNotations.
Local Open Scope string_scope.
Local Open Scope list_scope.
Local Open Scope nat_scope.


(** A connection with all its port and ICMP values. *)
Definition gconn (s d pr sp dp ty co : Z) : dim -> Z :=
  fun e => match e with 0 => s | 1 => d | 2 => pr | 3 => sp | 4 => dp | 8 => ty | 9 => co | _ => 0%Z end.
Lemma gconn_space : forall s d pr sp dp ty co, mem s std_peers -> mem d std_peers -> (0 <= pr <= 255)%Z -> (1 <= sp <= 65535)%Z -> (1 <= dp <= 65535)%Z ->
  (0 <= ty <= 254)%Z -> (0 <= co <= 255)%Z -> a_space std_dom (gconn s d pr sp dp ty co).
Proof.
  intros s d pr sp dp ty co Hs Hd Hp Hsp Hdp Ht Hco e.
  do 3 (destruct e as [|e]; [cbn -[std_peers Z.le]; auto; try (exists (Ivl 0 255); split; [left; auto|cbn [lo hi]; lia])|]).
  do 2 (destruct e as [|e]; [exists (Ivl 1 65535); split; [left; auto|cbn [lo hi gconn]; lia]|]).
  destruct e as [|e]; [exists (Ivl 0 8); split; [left; auto|cbn [lo hi gconn]; lia]|].
  destruct e as [|e]; [intros H; apply mem_nil in H; auto|].
  destruct e as [|e]; [intros H; apply mem_nil in H; auto|].
  destruct e as [|e]; [exists (Ivl 0 254); split; [left; auto|cbn [lo hi gconn]; lia]|].
  destruct e as [|e]; [exists (Ivl 0 255); split; [left; auto|cbn [lo hi gconn]; lia]|].
  exists (Ivl 0 100000); split; [left; auto|cbn [lo hi gconn]; lia].
Qed.
Ltac gspace := apply gconn_space; [apply peers_mem; vm_compute; reflexivity..| | | | |]; lia.
(** Rules of an ingress section of a policy in namespace ns that selects pod a. *)
Definition ex_mk := conns_of std_dom ex_reg (cl_ports ex_cl).
Definition ex_rule (m : list (string * yaml)) := calico_rule ex_cl ex_net ex_ops ex_mk (Some "ns") true [pa] (YMap m).
Definition ex_at (m : list (string * yaml)) (pt : dim -> Z) : Prop := crule_at ex_reg ex_cl ex_net (Some "ns") m pt.
(** The rule is accepted and matches exactly what its entry says. *)
Definition read_exactly (m : list (string * yaml)) : Prop :=
  forall r, ex_rule m = Some r -> forall pt, a_space std_dom pt -> (pt @ r_props r <-> pt_in (near ex_reg true pt) [pa] /\ ex_at m pt).
Definition said (m : list (string * yaml)) (pt : dim -> Z) : option bool := option_map (fun r => PropQueryCases.inside pt (r_props r)) (ex_rule m).
Lemma misread : forall m pt b, said m pt = Some b -> a_space std_dom pt ->
  (if b then ~ ex_at m pt else pt_in (near ex_reg true pt) [pa] /\ ex_at m pt) -> ~ read_exactly m.
Proof.
  intros m pt b E Sp H X. unfold said in E. destruct (ex_rule m) as [r|] eqn:Er; [|discriminate]. cbn [option_map] in E. injection E as E.
  specialize (X r Er pt Sp). destruct b.
  - apply PropQueryCases.inside_spec in E. apply X in E. tauto.
  - apply PropQueryCases.inside_not in E. apply E, X, H.
Qed.
Definition rule_map (l : list (string * yaml)) : list (string * yaml) := ("action", YStr "Allow") :: l.
Lemma near_a : forall s pr sp dp ty co, pt_in (near ex_reg true (gconn s (idx pa) pr sp dp ty co)) [pa].
Proof. intros. vm_compute. left. reflexivity. Qed.
Lemma from_b : forall pr sp dp ty co, a_src ex_reg (gconn (idx pb) (idx pa) pr sp dp ty co) = PN 0 "ns/b".
Proof. intros. vm_compute. reflexivity. Qed.
Lemma to_a : forall s pr sp dp ty co, a_dst ex_reg (gconn s (idx pa) pr sp dp ty co) = PN 0 "ns/a".
Proof. intros. vm_compute. reflexivity. Qed.
Definition from_b_to_a (pr sp dp ty co : Z) : dim -> Z := gconn (idx pb) (idx pa) pr sp dp ty co.
Lemma fba_space : forall pr sp dp ty co, (0 <= pr <= 255)%Z -> (1 <= sp <= 65535)%Z -> (1 <= dp <= 65535)%Z ->
  (0 <= ty <= 254)%Z -> (0 <= co <= 255)%Z -> a_space std_dom (from_b_to_a pr sp dp ty co).
Proof. intros. apply gconn_space; auto; apply peers_mem; vm_compute; reflexivity. Qed.
Lemma at_iff : forall m pr sp dp ty co, ex_at m (from_b_to_a pr sp dp ty co) <->
  crule_matches ex_cl ex_net (Some "ns") m (PN 0 "ns/b") (PN 0 "ns/a") pr sp dp ty co.
Proof. intros. unfold ex_at, crule_at, from_b_to_a. rewrite from_b, to_a. cbn [gconn]. tauto. Qed.
(** ** Rules read differently *)
(** F9: ICMP type 0 (echo reply) alone is taken for any type. *)
Definition m_type0 := rule_map [("protocol", YStr "ICMP"); ("icmp", YMap [("type", YInt 0)])].
Theorem C39_icmp_type_zero_refuted : ~ read_exactly m_type0.
Proof.
  apply (misread _ (from_b_to_a 1 1000 80 8 0) true); [vm_compute; reflexivity|apply fba_space; lia|]. rewrite at_iff. intros (_ & _ & _ & _ & H & _).
  destruct H as (m & E & H & _); [discriminate|]. injection E as <-. vm_compute in H. discriminate.
Qed.
(** F11: protocol with a different notProtocol matches nothing; it should be as if notProtocol were not there. *)
Definition m_both_protocols := rule_map [("protocol", YStr "TCP"); ("notProtocol", YStr "UDP")].
Theorem C39_protocol_and_not_protocol_refuted : ~ read_exactly m_both_protocols.
Proof.
  apply (misread _ (from_b_to_a 6 1000 80 8 0) false); [vm_compute; reflexivity|apply fba_space; lia|]. split; [apply near_a|]. rewrite at_iff.
  split; [left; cbn; auto|]. split; [left; cbn; auto|]. split; [intros _; right; exists "TCP"; split; [reflexivity|left; reflexivity]|].
  split; [intros _ [H|(s & H & H')]; [discriminate|]; injection H as <-; cbn in H'; repeat (destruct H' as [H'|H']; [try discriminate|]); auto|].
  split; intros H; destruct H; reflexivity.
Qed.
(** F12: an icmp entry with an equal notICMP entry matches the type instead of nothing. *)
Definition m_same_icmp := rule_map [("protocol", YStr "ICMP"); ("icmp", YMap [("type", YInt 8)]); ("notICMP", YMap [("type", YInt 8)])].
Theorem C39_same_not_icmp_refuted : ~ read_exactly m_same_icmp.
Proof.
  apply (misread _ (from_b_to_a 1 1000 80 8 0) true); [vm_compute; reflexivity|apply fba_space; lia|]. rewrite at_iff. intros (_ & _ & _ & _ & _ & H).
  apply H; [discriminate|]. eexists. split; [reflexivity|]. split; [reflexivity|]. left. reflexivity.
Qed.
(** F49: a notICMP entry for all codes of the type does not exclude an icmp entry with a code. *)
Definition m_wider_not_icmp := rule_map [("protocol", YStr "ICMP"); ("icmp", YMap [("type", YInt 8); ("code", YInt 3)]); ("notICMP", YMap [("type", YInt 8)])].
Theorem C39_wider_not_icmp_refuted : ~ read_exactly m_wider_not_icmp.
Proof.
  apply (misread _ (from_b_to_a 1 1000 80 8 3) true); [vm_compute; reflexivity|apply fba_space; lia|]. rewrite at_iff. intros (_ & _ & _ & _ & _ & H).
  apply H; [discriminate|]. eexists. split; [reflexivity|]. split; [reflexivity|]. left. reflexivity.
Qed.
(** F50: an excluded number does not exclude a port given by name that has this number. *)
Definition m_name_minus_number := rule_map [("protocol", YStr "TCP"); ("destination", YMap [("ports", YList [YStr "http"]); ("notPorts", YList [YInt 8080])])].
Theorem C39_name_minus_number_refuted : ~ read_exactly m_name_minus_number.
Proof.
  apply (misread _ (from_b_to_a 6 1000 8080 8 3) true); [vm_compute; reflexivity|apply fba_space; lia|]. rewrite at_iff. intros (_ & [_ [_ H]] & _).
  apply (H (YInt 8080)); [left; reflexivity|]. left. reflexivity.
Qed.
(** F51: an empty list of ports matches nothing. *)
Definition m_empty_ports := rule_map [("protocol", YStr "TCP"); ("destination", YMap [("ports", YList [])])].
Theorem C39_empty_ports_refuted : ~ read_exactly m_empty_ports.
Proof.
  apply (misread _ (from_b_to_a 6 1000 80 8 3) false); [vm_compute; reflexivity|apply fba_space; lia|]. split; [apply near_a|]. rewrite at_iff.
  split; [left; cbn; auto|]. split.
  - split; [|split; [left; reflexivity|intros e []]].
    split; [left; cbn; auto|]. repeat apply conj; first [intros [H _]; destruct H; reflexivity|intros H; destruct H; reflexivity|intros e []].
  - split; [intros _; right; exists "TCP"; split; [reflexivity|left; reflexivity]|]. repeat apply conj; intros H; destruct H; reflexivity.
Qed.
(** F52: names of source ports are dropped: here the rule excludes nothing. *)
Definition m_named_source := rule_map [("protocol", YStr "TCP"); ("source", YMap [("notPorts", YList [YStr "http"])])].
Definition from_a_to_a (pr sp dp ty co : Z) : dim -> Z := gconn (idx pa) (idx pa) pr sp dp ty co.
Theorem C39_named_source_port_refuted : ~ read_exactly m_named_source.
Proof.
  apply (misread _ (from_a_to_a 6 8080 80 8 3) true); [vm_compute; reflexivity|apply gconn_space; try lia; apply peers_mem; vm_compute; reflexivity|].
  intros ([_ [_ H]] & _). apply (H (YStr "http")); [left; reflexivity|]. right. right. exists "http". split; [reflexivity|]. split; [reflexivity|].
  exists 0, "ns/a". split; [vm_compute; reflexivity|]. vm_compute. reflexivity.
Qed.
(** F53: an empty egress section without types: the document is taken to be about egress only, instead of ingress only. *)
Definition calico_doc (kind name : string) (md sp : list (string * yaml)) : yaml :=
  YMap [("apiVersion", YStr "projectcalico.org/v3"); ("kind", YStr kind); ("metadata", YMap (("name", YStr name) :: md)); ("spec", YMap sp)].
Definition ex_profiles (p : peer) : list string := if peer_eqb p pa then ["front"; "back"] else if peer_eqb p pb then ["back"] else [].
Definition ex_cparse := calico_policy ex_cl ex_net ex_profiles ex_ops ex_mk.
Lemma cdoc_calico : forall kind name md sp ns, cdoc_ns kind (("name", YStr name) :: md) ns -> cdoc (calico_doc kind name md sp) kind name ns sp.
Proof. intros kind name md sp ns H. eexists. eexists. split; [reflexivity|]. repeat (split; [reflexivity|]). exact H. Qed.
Definition empty_egress_cdoc : yaml := calico_doc "NetworkPolicy" "p" [("namespace", YStr "ns")] [("egress", YList [])].
Theorem C51_empty_egress_refuted :
  ~ forall y p kind name ns sp, ex_cparse y = Some (Some p) -> cdoc y kind name ns sp -> (p_affects_in p = true <-> cabout sp true).
Proof.
  intros H. destruct (ex_cparse empty_egress_cdoc) as [[p|]|] eqn:E; [|vm_compute in E; discriminate..].
  assert (F : p_affects_in p = false) by (vm_compute in E; injection E as <-; reflexivity).
  assert (D : cdoc empty_egress_cdoc "NetworkPolicy" "p" (Some "ns") [("egress", YList [])]).
  { apply cdoc_calico. left. exists "ns". split; [reflexivity|]. split; [discriminate|reflexivity]. }
  specialize (H _ p _ _ _ _ E D). rewrite F in H. discriminate (proj2 H). right. split; [reflexivity|]. right. reflexivity.
Qed.

(** ** Documents to which the theorems apply *)
(** Simple selector texts. *)
Lemma text_app : forall a b, text (a ++ b)%string = text a ++ text b.
Proof. induction a as [|c a IH]; intros b; cbn; auto. unfold text in *. cbn. rewrite IH. reflexivity. Qed.
Lemma denotes_eq : forall k v, word k -> word v -> denotes (k ++ " == '" ++ v ++ "'")%string (EAtom (AEq k v)).
Proof.
  intros k v Hk Hv. unfold denotes. replace (text (k ++ " == '" ++ v ++ "'")%string) with ([] ++ (text k ++ [" "%char] ++ text "==" ++ [" "%char] ++ quote v) ++ []).
  - apply g_or1, g_and1, g_atom; try apply blank0. apply at_eq; auto; apply blank1.
  - rewrite app_nil_r. cbn [app]. unfold quote. rewrite text_app. f_equal. cbn. f_equal. f_equal. f_equal. f_equal. f_equal. rewrite text_app. reflexivity.
Qed.
Lemma denotes_has : forall k, word k -> denotes ("has(" ++ k ++ ")")%string (EAtom (AHas k)).
Proof.
  intros k Hk. unfold denotes. replace (text ("has(" ++ k ++ ")")%string) with ([] ++ (text "has(" ++ text k ++ [")"%char]) ++ []).
  - apply g_or1, g_and1, g_atom; try apply blank0. apply at_has; auto.
  - rewrite app_nil_r. cbn. rewrite text_app. reflexivity.
Qed.
Definition sel_web : yaml := YStr "app == 'web'".
Definition sel_db : yaml := YStr "app == 'db'".
Definition sel_app : yaml := YStr "has(app)".
Lemma benign_web : benign_sel sel_web.
Proof. right. eexists. exists (EAtom (AEq "app" "web")). split; [reflexivity|]. split; [|reflexivity]. apply (denotes_eq "app" "web"); apply word_dec; reflexivity. Qed.
Lemma benign_db : benign_sel sel_db.
Proof. right. eexists. exists (EAtom (AEq "app" "db")). split; [reflexivity|]. split; [|reflexivity]. apply (denotes_eq "app" "db"); apply word_dec; reflexivity. Qed.
Lemma benign_app : benign_sel sel_app.
Proof. right. eexists. exists (EAtom (AHas "app")). split; [reflexivity|]. split; [|reflexivity]. apply (denotes_has "app"); apply word_dec; reflexivity. Qed.
Lemma benign_env : benign_nssel (YStr "has(env)").
Proof. right. right. eexists. exists (EAtom (AHas "env")). split; [reflexivity|]. apply (denotes_has "env"); apply word_dec; reflexivity. Qed.
(** The web endpoints of the namespaces labelled env log; accept from the db pods their port http and ports 9000 to 9010, deny
    other TCP connections from labelled endpoints, and accept ICMP type 8, code 1. *)
Definition m_log := [("action", YStr "Log")].
Definition m_http := rule_map [("protocol", YStr "TCP"); ("source", YMap [("selector", sel_db)]);
                               ("destination", YMap [("ports", YList [YStr "http"; YStr "9000:9010"])])].
Definition m_deny := [("action", YStr "Deny"); ("protocol", YInt 6); ("source", YMap [("selector", sel_app)])].
Definition m_icmp := rule_map [("protocol", YStr "ICMP"); ("icmp", YMap [("type", YInt 8); ("code", YInt 1)]); ("notICMP", YMap [("type", YInt 3)])].
Definition gate_doc : yaml := calico_doc "GlobalNetworkPolicy" "gate" []
  [("order", YInt 10); ("selector", sel_web); ("namespaceSelector", YStr "has(env)");
   ("ingress", YList [YMap m_log; YMap m_http; YMap m_deny; YMap m_icmp])].
(** Everything in namespace ns accepts 10.0.0.0/8 but not 10.1.0.0/16, except UDP port 53; after all other policies. *)
Definition m_nets := rule_map [("source", YMap [("nets", YList [YStr "10.0.0.0/8"]); ("notNets", YList [YStr "10.1.0.0/16"])])].
Definition m_deny53 := [("action", YStr "Deny"); ("protocol", YStr "UDP"); ("destination", YMap [("ports", YList [YInt 53])])].
Definition nets_doc : yaml := calico_doc "NetworkPolicy" "nets" [("namespace", YStr "ns")]
  [("types", YList [YStr "Ingress"]); ("ingress", YList [YMap m_deny53; YMap m_nets])].
Definition ex_docs : list document := [CalicoDoc nets_doc; K8sDoc web_doc; CalicoDoc gate_doc].
Definition ex_parse_doc := parse_doc ex_reg ex_cl ex_net ex_profiles.
Definition ex_pols : list policy := flat_map (fun d => match ex_parse_doc d with Some (Some p) => [p] | _ => [] end) ex_docs.
Example ex_cdocs_parse : Forall2 (fun d p => ex_parse_doc d = Some (Some p)) ex_docs ex_pols.
Proof. unfold ex_pols. repeat constructor. Qed.
Lemma one_cdoc : forall k0 n0 md sp0 k n ns sp, cdoc (calico_doc k0 n0 md sp0) k n ns sp -> sp = sp0.
Proof. intros k0 n0 md sp0 k n ns sp (m & md' & E & _ & _ & _ & E2 & _). injection E as <-. cbn in E2. congruence. Qed.
Ltac no_field := intros; try discriminate; exfalso; auto.
Lemma no_entity : forall src, benign_entity src YNull.
Proof. intros src m E. discriminate. Qed.
Lemma no_icmp : forall m, yget m "icmp" = YNull -> yget m "notICMP" = YNull ->
  (yget m "icmp" <> YNull \/ yget m "notICMP" <> YNull -> means_proto (yget m "protocol") 1 \/ means_proto (yget m "protocol") 58) /\ benign_icmp (yget m "icmp") (yget m "notICMP").
Proof. intros m -> ->. split; [intros [H|H]; congruence|]. split; [intros m' E; discriminate|]. split; [intros m' E; discriminate|]. intros mi mn E; discriminate. Qed.
Lemma one_protocol : forall m, yget m "notProtocol" = YNull ->
  yget m "protocol" <> YNull -> yget m "notProtocol" <> YNull -> forall pr, means_proto (yget m "protocol") pr -> means_proto (yget m "notProtocol") pr.
Proof. intros m E _ H. congruence. Qed.
Lemma null_list : is_list YNull. Proof. left; auto. Qed.
Lemma some_list : forall l, is_list (YList l). Proof. intros l. right. eauto. Qed.
Lemma entity_sel : forall src s, benign_sel s -> benign_entity src (YMap [("selector", s)]).
Proof.
  intros src s H m E _. injection E as <-. split; [|split].
  - split; [left; reflexivity|]. split; [left; reflexivity|]. split; [intros e [[]|[]]|]. split; [exact H|]. split; [right; left; reflexivity|left; reflexivity].
  - split; [left; reflexivity|]. split; [left; reflexivity|]. split; [discriminate|]. split; [intros e [[]|[]]|]. intros (e & [] & _).
  - intros _. split; intros (e & [] & _).
Qed.
Lemma benign_m_log : benign_crule m_log.
Proof. split; [apply no_entity|]. split; [apply no_entity|]. split; [apply one_protocol; reflexivity|]. apply no_icmp; reflexivity. Qed.
Lemma benign_m_deny : benign_crule m_deny.
Proof. split; [apply entity_sel, benign_app|]. split; [apply no_entity|]. split; [apply one_protocol; reflexivity|]. apply no_icmp; reflexivity. Qed.
Lemma benign_m_http : benign_crule m_http.
Proof.
  split; [apply entity_sel, benign_db|]. split.
  - intros m E _. injection E as <-. split; [|split; [|discriminate]].
    + split; [left; reflexivity|]. split; [left; reflexivity|]. split; [intros e [[]|[]]|]. split; [left; reflexivity|]. split; [right; left; reflexivity|left; reflexivity].
    + split; [apply some_list|]. split; [left; reflexivity|]. split; [discriminate|]. split; [|intros _ e []].
      intros e [[<-|[<-|[]]]|[]] s Es; injection Es as <-; [left; reflexivity|]. right. exists 9000%Z, 9010%Z. vm_compute. reflexivity.
  - split; [apply one_protocol; reflexivity|]. apply no_icmp; reflexivity.
Qed.
Lemma benign_m_icmp : benign_crule m_icmp.
Proof.
  split; [apply no_entity|]. split; [apply no_entity|]. split; [apply one_protocol; reflexivity|]. split.
  - intros _. left. right. exists "ICMP". split; [reflexivity|]. right. right. left. reflexivity.
  - split; [intros m E; injection E as <-; split; discriminate|]. split; [intros m E; injection E as <-; split; discriminate|].
    intros mi mn E1 E2 H. injection E1 as <-. injection E2 as <-. discriminate H.
Qed.
Lemma benign_m_nets : benign_crule m_nets.
Proof.
  split.
  - intros m E _. injection E as <-. split; [|split].
    + split; [apply some_list|]. split; [apply some_list|]. split; [intros e [[<-|[]]|[<-|[]]]; reflexivity|]. split; [left; reflexivity|]. split; [right; left; reflexivity|left; reflexivity].
    + split; [left; reflexivity|]. split; [left; reflexivity|]. split; [discriminate|]. split; [intros e [[]|[]]|]. intros (e & [] & _).
    + intros _. split; intros (e & [] & _).
  - split; [apply no_entity|]. split; [apply one_protocol; reflexivity|]. apply no_icmp; reflexivity.
Qed.
Lemma benign_m_deny53 : benign_crule m_deny53.
Proof.
  split; [apply no_entity|]. split.
  - intros m E _. injection E as <-. split; [|split; [|discriminate]].
    + split; [left; reflexivity|]. split; [left; reflexivity|]. split; [intros e [[]|[]]|]. split; [left; reflexivity|]. split; [right; left; reflexivity|left; reflexivity].
    + split; [apply some_list|]. split; [left; reflexivity|]. split; [discriminate|]. split; [|intros _ e []]. intros e [[<-|[]]|[]] s Es; discriminate.
  - split; [apply one_protocol; reflexivity|]. apply no_icmp; reflexivity.
Qed.
Example ex_cdocs_benign : forall d, In d ex_docs -> doc_benign ex_reg ex_cl ex_net ex_profiles d.
Proof.
  intros d [<-|[<-|[<-|[]]]]; cbn [doc_benign]; [|apply ex_docs_benign; left; reflexivity|]; intros kind name ns sp D; apply one_cdoc in D; subst sp.
  - split; [split; [apply some_list|discriminate]|]. split; [right; left; reflexivity|]. split; [left; reflexivity|].
    intros ing m Hm. destruct ing; [|destruct Hm]. destruct Hm as [E|[E|[]]]; injection E as <-; (split; [first [apply benign_m_deny53|apply benign_m_nets]|left]).
    + intros (d & E & e & He & _). injection E as <-. destruct He.
    + intros (d & E & _). discriminate.
  - split; [split; [left; reflexivity|intros _; split; [intros H; destruct H; reflexivity|intros _; left; discriminate]]|].
    split; [right; apply benign_web|]. split; [apply benign_env|].
    intros ing m Hm. destruct ing; [|destruct Hm]. destruct Hm as [E|[E|[E|[E|[]]]]]; injection E as <-.
    + split; [apply benign_m_log|left]. intros (d & E & _). discriminate.
    + split; [apply benign_m_http|left]. intros (d & E & e & He & _). injection E as <-. destruct He.
    + split; [apply benign_m_deny|left]. intros (d & E & _). discriminate.
    + split; [apply benign_m_icmp|left]. intros (d & E & _). discriminate.
Qed.
Example ex_cdocs_no_pass : no_pass_docs ex_docs.
Proof.
  intros y [E|[E|[E|[]]]]; try discriminate; injection E as <-; intros kind name ns sp ing m D Hm; apply one_cdoc in D; subst sp; (destruct ing; [|destruct Hm]).
  - destruct Hm as [E|[E|[]]]; injection E as <-; discriminate.
  - destruct Hm as [E|[E|[E|[E|[]]]]]; injection E as <-; discriminate.
Qed.
Example ex_keys : NoDup (map (fun p => (full_name p, p_kind p)) ex_pols).
Proof. vm_compute. repeat (constructor; [cbn; intuition discriminate|]). constructor. Qed.
(** The theorems apply. *)
Definition ex_final := all_allowed (config_conns ex_ops (cl_peers ex_cl) (lays (add_all pcont_init ex_pols)) only_all_allowed).
Example ex_C52 : exists sorted, Permutation.Permutation ex_docs sorted /\
  forall pt, a_space std_dom pt -> pod_or_ip (cl_peers ex_cl) (a_src ex_reg pt) -> pod_or_ip (cl_peers ex_cl) (a_dst ex_reg pt) ->
  (pt @ ex_final <-> doc_side ex_reg ex_cl ex_net ex_profiles sorted true pt /\ doc_side ex_reg ex_cl ex_net ex_profiles sorted false pt).
Proof.
  destruct (C52_documents_in_order ex_reg ex_reg_ok ex_cl ex_cl_ok ex_kinds_ok ex_cl_container ex_cl_ports ex_net ex_net_ok ex_profiles eq_refl
    ex_docs ex_pols ex_cdocs_parse ex_cdocs_benign ex_keys) as (sorted & P & _ & X).
  exists sorted. split; auto. exact (X (or_introl ex_cdocs_no_pass)).
Qed.
(** The layer is ordered gate, web, nets. *)
Example ex_order : map p_name (layer_list (add_all pcont_init ex_pols) LK8sCalico) = ["gate"; "web"; "nets"].
Proof. vm_compute. reflexivity. Qed.
(** b reaches a's http port and ports 9000-9010 over TCP, not 80; ICMP type 8, code 1 is allowed, code 2 is not (the later
    policies do not allow it); 10.2.0.0 reaches a's port 53 over UDP (the Kubernetes policy comes before the deny rule) but not
    b's; 10.1.0.0 does not reach b. *)
Definition ex_reach (s d pr dp ty co : Z) : bool := PropQueryCases.inside (gconn s d pr 1000 dp ty co) ex_final.
Example ex_reached :
  ex_reach (idx pb) (idx pa) 6 8080 0 0 = true /\ ex_reach (idx pb) (idx pa) 6 9005 0 0 = true /\ ex_reach (idx pb) (idx pa) 6 80 0 0 = false /\
  ex_reach (idx pc) (idx pa) 6 8080 0 0 = false /\ ex_reach (idx pb) (idx pa) 1 80 8 1 = true /\ ex_reach (idx pb) (idx pa) 1 80 8 2 = false /\
  ex_reach (10 * 2 ^ 24 + 2 * 2 ^ 16) (idx pa) 17 53 0 0 = true /\ ex_reach (10 * 2 ^ 24 + 2 * 2 ^ 16) (idx pb) 17 53 0 0 = false /\
  ex_reach (10 * 2 ^ 24 + 2 * 2 ^ 16) (idx pb) 17 54 0 0 = true /\ ex_reach (10 * 2 ^ 24 + 2 ^ 16) (idx pb) 17 54 0 0 = false /\
  ex_reach (idx pa) (idx pc) 6 80 0 0 = true.
Proof. repeat apply conj; vm_compute; reflexivity. Qed.
(** The rules, one by one. *)
Example ex_C39 : forall m, In m [m_log; m_http; m_deny; m_icmp; m_nets; m_deny53] -> read_exactly m.
Proof.
  intros m Hm r E. assert (B : benign_crule m).
  { destruct Hm as [<-|[<-|[<-|[<-|[<-|[<-|[]]]]]]]; [apply benign_m_log|apply benign_m_http|apply benign_m_deny|apply benign_m_icmp|apply benign_m_nets|apply benign_m_deny53]. }
  assert (P : pok ex_reg [pa]). { apply (plain_pok ex_cl ex_reg ex_cl_container); intros q [<-|[]]; [reflexivity|left; reflexivity]. }
  exact (proj2 (C39_rule_connections ex_reg ex_reg_ok ex_cl ex_cl_ok ex_kinds_ok ex_cl_container ex_cl_ports ex_net ex_net_ok (Some "ns") true [pa] m r P E B)).
Qed.
Example ex_C39_read : forall m, In m [m_log; m_http; m_deny; m_icmp; m_nets; m_deny53] -> ex_rule m <> None.
Proof. intros m [<-|[<-|[<-|[<-|[<-|[<-|[]]]]]]]; vm_compute; discriminate. Qed.
(** A profile is applied to the endpoints whose first profile it is: front to a only, back to b only. *)
Definition profile_doc (name : string) : yaml := calico_doc "Profile" name [] [("ingress", YList [YMap m_http])].
Example ex_profile : forall name p, ex_cparse (profile_doc name) = Some (Some p) -> forall x,
  selects p true x <-> exists q, at_peer q x /\ In q (cl_peers ex_cl) /\ exists rest, ex_profiles q = name :: rest.
Proof.
  intros name p E x.
  assert (B : benign_cdoc ex_reg ex_cl ex_net ex_profiles (profile_doc name)).
  { intros kind n ns sp D. apply one_cdoc in D. subst sp. split; [split; [left; reflexivity|intros _; split; [intros H; destruct H; reflexivity|intros _; left; discriminate]]|].
    split; [right; left; reflexivity|]. split; [left; reflexivity|]. intros ing m Hm. destruct ing; [|destruct Hm]. destruct Hm as [F|[]]. injection F as <-.
    split; [apply benign_m_http|left]. intros (d & F & e & He & _). injection F as <-. destruct He. }
  rewrite (C51_selected_endpoints ex_reg ex_reg_ok ex_cl ex_cl_ok ex_kinds_ok ex_cl_container ex_cl_ports ex_net ex_net_ok ex_profiles _ p E B true x).
  assert (D : cdoc (profile_doc name) "Profile" name None [("ingress", YList [YMap m_http])]) by (apply cdoc_calico; right; split; [intros [H _]; apply H; reflexivity|reflexivity]).
  split.
  - intros ((kind & n & ns & sp & q & D' & H1 & H2 & H3) & _). destruct (cdoc_fn _ _ _ _ _ _ _ _ _ D D') as (-> & -> & -> & ->). exists q. auto.
  - intros (q & H1 & H2 & H3). split; [exists "Profile", name, None, [("ingress", YList [YMap m_http])], q; auto|].
    exists "Profile", name, None, [("ingress", YList [YMap m_http])]. split; [exact D|]. right. split; [reflexivity|]. left. discriminate.
Qed.
Example ex_profile_selected : map (fun n => match ex_cparse (profile_doc n) with Some (Some p) => map idx (p_selected p) | _ => [] end) ["front"; "back"] = [[idx pa]; [idx pb]].
Proof. vm_compute. reflexivity. Qed.
Print Assumptions C39_rule_connections.
Print Assumptions C39_protocol_and_icmp.
Print Assumptions C51_flags.
Print Assumptions C51_kind_and_order.
Print Assumptions C51_selected_endpoints.
Print Assumptions C51_first_rule_entry.
Print Assumptions C51_allowed_denied_passed.
Print Assumptions C52_allowed_connections.
Print Assumptions C52_allowed_by_configuration.
Print Assumptions C52_documents_in_order.
Print Assumptions C39_icmp_type_zero_refuted.
Print Assumptions C39_protocol_and_not_protocol_refuted.
Print Assumptions C39_same_not_icmp_refuted.
Print Assumptions C39_wider_not_icmp_refuted.
Print Assumptions C39_name_minus_number_refuted.
Print Assumptions C39_empty_ports_refuted.
Print Assumptions C39_named_source_port_refuted.
Print Assumptions C51_empty_egress_refuted.
