(** * Concrete AuthorizationPolicy documents: the theorems of PropIstioParser.v apply to them; and documents for which C53 fails
    without its conditions (findings F55-F58, F60, F63). *)
From Coq Require Import ZArith List Bool Arith Lia String Ascii Permutation.
From Verif Require Import IntervalModel IntervalFacts HyperModel HyperFacts HyperOps HyperDims HyperTop HyperInst
                          PropHyperCube ConnModel ConnFacts TextModel TextFacts PortProtoModel PortProtoFacts PeerModel PeerFacts PeerSetFacts
                          PolicyModel PolicyLaws PolicyFacts LayerFacts OrderFacts ConnAlg StdDims PropLayers YamlModel ClusterModel K8sParserModel SelectorFacts
                          ConnDict NamedExcl PropSelectors K8sParserFacts PropK8sParser CalicoSelectorModel CalicoSelectorFacts CalicoSelectorGram
                          CalicoSelectorSets CalicoParserModel CalicoParserFacts CalicoRuleFacts PropCalicoSelectors PropCalicoParser PropCalicoCases
                          IstioValueModel PropIstioValues IstioParserModel IstioParserFacts IstioRuleFacts PropIstioParser.
From Verif Require PropQueryCases.
Import ListNotations.
Local Open Scope string_scope.
Local Open Scope list_scope.
Local Open Scope nat_scope.

(** A connection with a method, a host and a path. *)
Definition hconn (s d pr dp me h p : Z) : dim -> Z :=
  fun e => match e with 0 => s | 1 => d | 2 => pr | 3 => 1000%Z | 4 => dp | 5 => me | 6 => h | 7 => p | _ => 0%Z end.
Lemma hconn_space : forall s d pr dp me h p, mem s std_peers -> mem d std_peers -> (0 <= pr <= 255)%Z -> (1 <= dp <= 65535)%Z -> (0 <= me <= 8)%Z ->
  a_space std_dom (hconn s d pr dp me h p).
Proof.
  intros s d pr dp me h p Hs Hd Hp Hdp Hme e.
  do 3 (destruct e as [|e]; [cbn -[std_peers Z.le]; auto; try (exists (Ivl 0 255); split; [left; auto|cbn [lo hi]; lia])|]).
  do 2 (destruct e as [|e]; [exists (Ivl 1 65535); split; [left; auto|cbn [lo hi hconn]; lia]|]).
  destruct e as [|e]; [exists (Ivl 0 8); split; [left; auto|cbn [lo hi hconn]; lia]|].
  destruct e as [|e]; [intros H; apply mem_nil in H; auto|].
  destruct e as [|e]; [intros H; apply mem_nil in H; auto|].
  destruct e as [|e]; [exists (Ivl 0 254); split; [left; auto|cbn [lo hi hconn]; lia]|].
  destruct e as [|e]; [exists (Ivl 0 255); split; [left; auto|cbn [lo hi hconn]; lia]|].
  exists (Ivl 0 100000); split; [left; auto|cbn [lo hi hconn]; lia].
Qed.
Ltac hspace := apply hconn_space; [apply peers_mem; vm_compute; reflexivity..| | |]; lia.
(** Words: the host a.com has number 2, other words number 1; the only automaton needed accepts a.com. *)
Definition icode (w : word) : Z := if list_eq_dec ascii_dec w (text "a.com") then 2%Z else match w with [] => 0%Z | _ => 1%Z end.
Definition idfa (_ : list ascii) : val := VN false [Ivl 2 2].
Lemma icode_ok : code_ok icode.
Proof. intros w H. unfold icode. destruct (list_eq_dec ascii_dec w (text "a.com")); [discriminate|]. destruct w; congruence. Qed.
Lemma exact_value : forall v w, ~ In "*"%char v -> (value_matches v w <-> w = v).
Proof.
  intros v w N. unfold value_matches. split; [|auto]. intros [[_ H]|[[-> _]|[(p & x & _ & _ & -> & _)|(p & x & _ & _ & -> & _)]]]; auto; exfalso; apply N.
  - left. auto.
  - apply in_or_app. right. left. auto.
  - left. auto.
Qed.
Lemma idfa_right : dfa_right icode idfa 6 [YStr "a.com"].
Proof.
  intros t Et. split; [split; [|split; [exact I|intros x _; cbn; rewrite mem_nil; tauto]]|]. { cbn. unfold canonical. cbn. lia. } intros w e [Hw _] Er. destruct (C40_regex_language _ _ Et) as (e' & Er' & M). rewrite Er in Er'. injection Er' as <-.
  rewrite M. unfold idfa, val_mem. rewrite one_mem. unfold icode. split.
  - intros H. split; auto. exists "a.com". split; [left; auto|]. apply exact_value; [cbn; intuition discriminate|]. destruct (list_eq_dec ascii_dec w (text "a.com")); auto. destruct w; lia.
  - intros (_ & s & [E|[]] & H). injection E as <-. apply exact_value in H; [|cbn; intuition discriminate]. subst w.
    destruct (list_eq_dec ascii_dec (text "a.com") (text "a.com")); [lia|congruence].
Qed.
Definition ex_nss : list string := ["ns"; "other"].
Lemma ex_nss_ok : namespaces_ok ex_cl ex_nss.
Proof.
  intros q n [<-|[<-|[<-|[<-|[<-|[]]]]]] E; vm_compute in E; try discriminate; injection E as <-; (split; [split; [discriminate|cbn; intuition discriminate]|cbn; auto]).
Qed.
(** A cluster of pods only, each with a service account. *)
Definition ex_cl2 : cluster :=
  {| cl_peers := [pa; pb; pc]; cl_labels := cl_labels ex_cl; cl_extra := cl_extra ex_cl; cl_ns := cl_ns ex_cl; cl_nslabels := cl_nslabels ex_cl; cl_ports := cl_ports ex_cl |}.
Lemma ex_cl2_ok : cluster_ok ex_cl2.
Proof. intros q H. apply ex_cl_ok. cbn in *. tauto. Qed.
Lemma ex_kinds2_ok : kinds_ok ex_cl2.
Proof. intros k n H. apply (ex_kinds_ok k n). cbn in *. tauto. Qed.
Lemma ex_cl2_container : container ex_reg (cl_peers ex_cl2).
Proof. intros p H. apply ex_cl_container. cbn in *. tauto. Qed.
Lemma ex_nss2_ok : namespaces_ok ex_cl2 ex_nss.
Proof. intros q n H. apply ex_nss_ok. cbn in *. tauto. Qed.
Definition ex_sa (p : peer) : string := if peer_eqb p pa then "web" else if peer_eqb p pb then "db" else "default".
(** As written, but the account of b has a dot. *)
Definition dot_sa (p : peer) : string := if peer_eqb p pb then "web.v2" else ex_sa p.

Definition ap (name ns : string) (sp : list (string * yaml)) : yaml :=
  YMap [("apiVersion", YStr "security.istio.io/v1beta1"); ("kind", YStr "AuthorizationPolicy");
        ("metadata", YMap [("name", YStr name); ("namespace", YStr ns)]); ("spec", YMap sp)].
Definition iparse (cl : cluster) (sa : peer -> string) := istio_policy cl ex_net sa (val_ops std_dom) idfa ex_ops ex_mk (hall Conn) ex_nss.
Lemma ap_is : forall name ns sp, ns <> "" -> ap_doc (ap name ns sp) name ns sp.
Proof. intros name ns sp N. eexists. eexists. split; [reflexivity|]. repeat (split; [reflexivity|]). split; [left; reflexivity|]. left. split; auto. Qed.
Lemma ap_only : forall n0 s0 sp0 n s sp, s0 <> "" -> ap_doc (ap n0 s0 sp0) n s sp -> s = s0 /\ sp = sp0.
Proof. intros n0 s0 sp0 n s sp N D. destruct (ap_doc_fn _ _ _ _ _ _ _ (ap_is n0 s0 sp0 N) D) as (_ & -> & ->). auto. Qed.
Lemma ap_benign : forall cl sa name ns sp, ns <> "" -> selector_benign cl ns sp ->
  (forall m, In (YMap m) (ylist (yget sp "rules")) -> rule_benign cl sa icode idfa m) -> benign_ap cl sa icode idfa (ap name ns sp).
Proof.
  intros cl sa name ns sp N S B. split; [intros m E; injection E as <-; discriminate|]. split.
  - intros n s sp' D. destruct (ap_only _ _ _ _ _ _ N D) as [-> ->]. exact S.
  - intros m (n & s & sp' & D & Hm). destruct (ap_only _ _ _ _ _ _ N D) as [-> ->]. apply B. exact Hm.
Qed.

(** ** Documents read as written *)
(** The web pods of namespace ns accept: GET on port 8080 with host a.com from the pods of the namespaces n*, not the namespace
    other; anything but port 9000 over TCP from 10.0.0.0/8 but not 10.1.0.0/16. *)
Definition r_get : list (string * yaml) :=
  [("from", YList [YMap [("source", YMap [("namespaces", YList [YStr "n*"]); ("notNamespaces", YList [YStr "other"])])]]);
   ("to", YList [YMap [("operation", YMap [("ports", YList [YStr "8080"]); ("methods", YList [YStr "GET"]); ("hosts", YList [YStr "a.com"])])]])].
Definition r_ips : list (string * yaml) :=
  [("from", YList [YMap [("source", YMap [("ipBlocks", YList [YStr "10.0.0.0/8"]); ("notIpBlocks", YList [YStr "10.1.0.0/16"])])]]);
   ("when", YList [YMap [("key", YStr "destination.port"); ("notValues", YList [YInt 9000])]])].
Definition allow_web : yaml := ap "allow-web" "ns" [("selector", YMap [("matchLabels", YMap [("app", YStr "web")])]); ("rules", YList [YMap r_get; YMap r_ips])].
(** No pod accepts port 80 from the namespace other. *)
Definition r_other : list (string * yaml) :=
  [("from", YList [YMap [("source", YMap [("namespaces", YList [YStr "other"])])]]); ("to", YList [YMap [("operation", YMap [("ports", YList [YInt 80])])]])].
Definition deny_other : yaml := ap "deny-other" "istio-config" [("action", YStr "DENY"); ("rules", YList [YMap r_other])].

Ltac one_entry H := destruct H as [H|[]]; first [injection H as <-|subst].
Ltac no_list := let H := fresh in intros H; cbn in H; discriminate H.
Lemma no_words : forall d m kpos kneg, yget m kpos = YNull -> yget m kneg = YNull -> words_benign icode idfa d m kpos kneg.
Proof.
  intros d m kpos kneg E1 E2. split.
  - intros k l [->| ->] E; congruence.
  - intros [[l E]|[l E]]; congruence.
Qed.
Lemma host_word : forall m, yget m "hosts" = YList [YStr "a.com"] -> yget m "notHosts" = YNull -> words_benign icode idfa 6 m "hosts" "notHosts".
Proof.
  intros m E1 E2. split.
  - intros k l [->| ->] E; [|congruence]. rewrite E1 in E. injection E as <-. apply idfa_right.
  - intros _. exists (text "a.com"). split; [discriminate|]. split; [split; [repeat (constructor; [reflexivity|]); constructor|discriminate]|]. split.
    + intros l E _. rewrite E1 in E. injection E as <-. exists (YStr "a.com"). split; [left; auto|]. exists "a.com". split; auto. apply exact_value; [cbn; intuition discriminate|]. auto.
    + intros l E. congruence.
Qed.
Lemma source_ok : forall cl sa m, (forall k, In k source_keys -> yget m k <> YList []) ->
  (forall k l e, k = "ipBlocks" \/ k = "notIpBlocks" -> yget m k = YList l -> In e l -> ytrue e = true) ->
  (yget m "principals" = YNull /\ yget m "notPrincipals" = YNull \/ accounts_ok cl sa) -> source_benign cl sa m.
Proof. intros cl sa m H1 H2 H3. split; auto. split; auto. intros G. destruct H3 as [[E1 E2]|H3]; auto. destruct G as [[l G]|[l G]]; congruence. Qed.
Lemma benign_get : rule_benign ex_cl ex_sa icode idfa r_get.
Proof.
  split; [|split].
  - intros l e s E He (d & -> & Es). injection E as <-. one_entry He. cbn in Es. injection Es as <-. apply source_ok; [|intros k l e [->| ->] E; discriminate|left; auto].
    intros k [<-|[<-|[<-|[<-|[<-|[<-|[]]]]]]]; discriminate.
  - intros l e o E He (d & -> & Es). injection E as <-. one_entry He. cbn in Es. injection Es as <-. split; [|split; [discriminate|split; [apply no_words; reflexivity|apply host_word; reflexivity]]].
    split; [discriminate|]. intros k l e [->| ->] E He; [|discriminate]. injection E as <-. destruct He as [<-|[]]. intros s Es. injection Es as <-. exists 8080%Z. reflexivity.
  - intros l c E. discriminate.
Qed.
Lemma benign_ips : rule_benign ex_cl ex_sa icode idfa r_ips.
Proof.
  split; [|split].
  - intros l e s E He (d & -> & Es). injection E as <-. one_entry He. cbn in Es. injection Es as <-. apply source_ok; [| |left; auto].
    + intros k [<-|[<-|[<-|[<-|[<-|[<-|[]]]]]]]; discriminate.
    + intros k l e [->| ->] E He; injection E as <-; destruct He as [<-|[]]; reflexivity.
  - intros l e o E. discriminate.
  - intros l c E He. injection E as <-. destruct He as [He|[]]. injection He as <-. split; [discriminate|]. split; [discriminate|]. split; [discriminate|].
    split; [discriminate|]. split; [discriminate|]. intros _. split; [discriminate|]. intros k l e [->| ->] E He; [discriminate|]. injection E as <-. destruct He as [<-|[]]. intros s Es. discriminate.
Qed.
Lemma benign_other : rule_benign ex_cl ex_sa icode idfa r_other.
Proof.
  split; [|split].
  - intros l e s E He (d & -> & Es). injection E as <-. one_entry He. cbn in Es. injection Es as <-. apply source_ok; [|intros k l e [->| ->] E; discriminate|left; auto].
    intros k [<-|[<-|[<-|[<-|[<-|[<-|[]]]]]]]; discriminate.
  - intros l e o E He (d & -> & Es). injection E as <-. one_entry He. cbn in Es. injection Es as <-. split; [|split; [discriminate|split; apply no_words; reflexivity]].
    split; [discriminate|]. intros k l e [->| ->] E He; [|discriminate]. injection E as <-. destruct He as [<-|[]]. intros s Es. discriminate.
  - intros l c E. discriminate.
Qed.
Example ex_benign_web : benign_ap ex_cl ex_sa icode idfa allow_web.
Proof. apply ap_benign; [discriminate|left; discriminate|]. intros m [E|[E|[]]]; injection E as <-; [apply benign_get|apply benign_ips]. Qed.
Example ex_benign_deny : benign_ap ex_cl ex_sa icode idfa deny_other.
Proof. apply ap_benign; [discriminate|right; left; reflexivity|]. intros m [E|[]]. injection E as <-. apply benign_other. Qed.
Definition ex_adocs : list yaml := [allow_web; deny_other].
Definition ex_apols : list policy := flat_map (fun y => match iparse ex_cl ex_sa y with Some (Some p) => [p] | _ => [] end) ex_adocs.
Example ex_adocs_parse : Forall2 (fun y p => iparse ex_cl ex_sa y = Some (Some p)) ex_adocs ex_apols.
Proof. unfold ex_apols. repeat constructor. Qed.
Example ex_selected : map (fun p => map idx (p_selected p)) ex_apols = [[idx pa]; [idx pa; idx pb; idx pc]].
Proof. vm_compute. reflexivity. Qed.
(** With the documents of PropCalicoCases.v. *)
Definition ex_added : list policy := ex_apols ++ ex_pols.
Example ex_akeys : NoDup (map (fun p => (full_name p, p_kind p)) (ex_added ++ [])).
Proof. vm_compute. repeat (constructor; [cbn; intuition discriminate|]). constructor. Qed.
Definition ex_all := all_allowed (config_conns ex_ops (cl_peers ex_cl) (lays (add_all pcont_init (ex_added ++ []))) only_all_allowed).
Example ex_C54 : exists sorted, Permutation ex_docs sorted /\
  forall pt h w, a_space std_dom pt -> words_at icode pt h w -> endpoint ex_cl (a_src ex_reg pt) -> endpoint ex_cl (a_dst ex_reg pt) ->
  ~ (is_addr (a_src ex_reg pt) /\ is_addr (a_dst ex_reg pt)) ->
  (pt @ ex_all <-> doc_side ex_reg ex_cl ex_net ex_profiles sorted true pt /\ doc_side ex_reg ex_cl ex_net ex_profiles sorted false pt /\
                   istio_allows ex_reg ex_cl ex_net ex_sa ex_adocs [] pt h w).
Proof.
  assert (AB : forall y, In y ex_adocs -> benign_ap ex_cl ex_sa icode idfa y) by (intros y [<-|[<-|[]]]; [apply ex_benign_web|apply ex_benign_deny]).
  assert (AP : Permutation (ex_pols ++ ex_apols) ex_added) by apply Permutation_app_comm.
  assert (SC : forall p : policy, In p [] -> p_kind p = TSidecar /\ policy_wf std_dom std_rest ex_reg p /\ confined std_dom ex_reg (cl_peers ex_cl) p) by (intros p []).
  destruct (C54_documents_of_all_layers ex_reg ex_reg_ok ex_cl ex_cl_ok ex_kinds_ok ex_cl_container ex_cl_ports ex_net ex_net_ok ex_sa icode idfa icode_ok
    ex_nss ex_nss_ok eq_refl ex_profiles ex_docs ex_pols ex_cdocs_parse ex_cdocs_benign ex_adocs ex_apols ex_adocs_parse AB [] SC ex_added AP ex_akeys)
    as (sorted & P & _ & X).
  exists sorted. split; auto. exact (X (or_introl ex_cdocs_no_pass)).
Qed.
(** Over TCP, b reaches a's port 8080 with GET and host a.com, not with POST, another host or port 9005; 10.2.0.0 does not
    reach a's port 9005 (the other layer) but 8080; c does not reach its own port 80 but a does, and c reaches its own 81; UDP is not restricted by
    Istio. *)
Definition ex_goes (s d pr dp me h : Z) : bool := PropQueryCases.inside (hconn s d pr dp me h 1) ex_all.
Example ex_goes_where :
  ex_goes (idx pb) (idx pa) 6 8080 0 2 = true /\ ex_goes (idx pb) (idx pa) 6 8080 2 2 = false /\ ex_goes (idx pb) (idx pa) 6 8080 0 1 = false /\
  ex_goes (idx pb) (idx pa) 6 9005 0 2 = false /\ ex_goes (10 * 2 ^ 24 + 2 * 2 ^ 16) (idx pa) 6 8080 2 1 = true /\
  ex_goes (10 * 2 ^ 24 + 2 ^ 16) (idx pa) 6 8080 2 1 = false /\ ex_goes (idx pc) (idx pc) 6 80 0 1 = false /\ ex_goes (idx pa) (idx pc) 6 80 0 1 = true /\
  ex_goes (idx pc) (idx pc) 6 81 0 1 = true /\ ex_goes (idx pb) (idx pa) 6 80 0 2 = false /\
  ex_goes (10 * 2 ^ 24 + 2 * 2 ^ 16) (idx pa) 17 53 0 0 = true.
Proof. repeat apply conj; vm_compute; reflexivity. Qed.
(** The pods that run as the account web, or in the namespace other. *)
Definition r_web : list (string * yaml) :=
  [("from", YList [YMap [("source", YMap [("principals", YList [YStr "cluster.local/ns/ns/sa/web"])])];
                   YMap [("source", YMap [("principals", YList [YStr "*"]); ("notPrincipals", YList [YStr "cluster.local/ns/ns/*"])])]])].
Definition allow_accounts : yaml := ap "allow-accounts" "ns" [("rules", YList [YMap r_web])].
Lemma ex_accounts : accounts_ok ex_cl2 ex_sa.
Proof.
  intros i n [E|[E|[E|[]]]] En; injection E as <-; vm_compute in En; injection En as <-; split; (split; [discriminate|reflexivity]).
Qed.
Lemma benign_web : rule_benign ex_cl2 ex_sa icode idfa r_web.
Proof.
  split; [|split; [intros l e o E; discriminate|intros l c E; discriminate]].
  intros l e s E He (d & -> & Es). injection E as <-. destruct He as [He|[He|[]]]; injection He as <-; cbn in Es; injection Es as <-;
    (apply source_ok; [|intros k l e [->| ->] E; discriminate|right; apply ex_accounts]); intros k [<-|[<-|[<-|[<-|[<-|[<-|[]]]]]]]; discriminate.
Qed.
Example ex_benign_accounts : benign_ap ex_cl2 ex_sa icode idfa allow_accounts.
Proof. apply ap_benign; [discriminate|left; discriminate|]. intros m [E|[]]. injection E as <-. apply benign_web. Qed.
Example ex_C53 : exists p, iparse ex_cl2 ex_sa allow_accounts = Some (Some p) /\
  (forall pt h w, a_space std_dom pt -> words_at icode pt h w ->
    (pt @ allowed (policy_conns ex_ops p true) <-> ap_action allow_accounts Allow /\ ap_selects ex_cl2 allow_accounts (a_dst ex_reg pt) /\
       ap_entry_matches ex_reg ex_cl2 ex_net ex_sa allow_accounts pt h w)) /\
  map (fun s => PropQueryCases.inside (hconn (idx s) (idx pb) 6 80 0 1 1) (allowed (policy_conns ex_ops p true))) [pa; pb; pc] = [true; false; true].
Proof.
  eexists. split; [vm_compute; reflexivity|]. split; [|vm_compute; reflexivity].
  intros pt h w Sp Hw.
  refine (proj1 (C53_allowed_and_denied ex_reg ex_reg_ok ex_cl2 ex_cl2_ok ex_kinds2_ok ex_cl2_container ex_cl_ports ex_net ex_net_ok ex_sa icode idfa icode_ok
    ex_nss ex_nss2_ok allow_accounts _ _ ex_benign_accounts pt h w Sp Hw)). vm_compute. reflexivity.
Qed.

(** ** Documents read differently *)
Definition iread_exactly (cl : cluster) (sa : peer -> string) (y : yaml) : Prop :=
  forall p, iparse cl sa y = Some (Some p) -> forall pt h w, a_space std_dom pt -> words_at icode pt h w ->
  (some_rule (p_ingress p) pt <-> ap_selects cl y (a_dst ex_reg pt) /\ ap_entry_matches ex_reg cl ex_net sa y pt h w).
(** What the rules of the parsed document match. *)
Definition isaid (cl : cluster) (sa : peer -> string) (y : yaml) (pt : dim -> Z) : option bool :=
  match iparse cl sa y with Some (Some p) => Some (existsb (fun r => PropQueryCases.inside pt (r_props r)) (p_ingress p)) | _ => None end.
Lemma imisread : forall cl sa y pt h w b, isaid cl sa y pt = Some b -> a_space std_dom pt -> words_at icode pt h w ->
  (if b then ~ ap_entry_matches ex_reg cl ex_net sa y pt h w else ap_selects cl y (a_dst ex_reg pt) /\ ap_entry_matches ex_reg cl ex_net sa y pt h w) -> ~ iread_exactly cl sa y.
Proof.
  intros cl sa y pt h w b E Sp Hw H X. unfold isaid in E. destruct (iparse cl sa y) as [[p|]|] eqn:Ep; try discriminate. injection E as E.
  specialize (X p Ep pt h w Sp Hw). destruct b.
  - apply existsb_exists in E as (r & Hr & E). apply PropQueryCases.inside_spec in E. apply H. apply X. exists r. auto.
  - apply X in H as (r & Hr & H). assert (F : existsb (fun r => PropQueryCases.inside pt (r_props r)) (p_ingress p) = true) by (apply existsb_exists; exists r; split; auto; apply PropQueryCases.inside_spec; auto).
    congruence.
Qed.
Lemma word0 : forall s d pr dp me, words_at icode (hconn s d pr dp me 0 1) [] (text "/").
Proof. intros. split; (split; [reflexivity|]); (split; [repeat constructor|]); [discriminate|intros _; exists []; reflexivity]. Qed.
Lemma ns_selects_a : forall cl name sp, In pa (cl_peers cl) -> cl_ns cl = cl_ns ex_cl -> yget sp "selector" = YNull -> ap_selects cl (ap name "ns" sp) (PN 0 "ns/a").
Proof.
  intros cl name sp H1 H2 H3. exists name, "ns", sp, "ns/a". split; [apply ap_is; discriminate|]. split; auto. split; auto. split; [right; rewrite H2; reflexivity|].
  intros s l k v E. congruence.
Qed.
Lemma entry_in : forall name sp m, In (YMap m) (ylist (yget sp "rules")) -> ap_entries (ap name "ns" sp) m.
Proof. intros name sp m H. exists name, "ns", sp. split; [apply ap_is; discriminate|auto]. Qed.
Lemma entry_only : forall name m m', ap_entries (ap name "ns" [("rules", YList [YMap m])]) m' -> m' = m.
Proof. intros name m m' (n & s & sp & D & H). assert (N : "ns" <> "") by discriminate. destruct (ap_only _ _ _ _ _ _ N D) as [-> ->]. destruct H as [H|[]]. congruence. Qed.
Lemma b_source : forall cl, In pb (cl_peers cl) -> source_point cl (PN 0 "ns/b").
Proof. intros cl H. left. split; [exact H|vm_compute; discriminate]. Qed.
(** F58: an empty list of ports beside another list matches no port. *)
Definition r_no_ports : list (string * yaml) := [("to", YList [YMap [("operation", YMap [("ports", YList []); ("methods", YList [YStr "GET"])])]])].
Definition no_ports_doc : yaml := ap "p" "ns" [("rules", YList [YMap r_no_ports])].
Lemma get_method : forall m, yget m "methods" = YList [YStr "GET"] -> one_of m "methods" (method_is 0).
Proof.
  intros m E l El _. rewrite E in El. injection El as <-. exists (YStr "GET"). split; [left; auto|]. exists "GET". split; [lia|]. split; [reflexivity|].
  exists "GET". split; auto. apply exact_value; [cbn; intuition discriminate|]. auto.
Qed.
Theorem C53_empty_list_refuted : ~ iread_exactly ex_cl ex_sa no_ports_doc.
Proof.
  apply (imisread _ _ _ (hconn (idx pb) (idx pa) 6 80 0 0 1) [] (text "/") false); [vm_compute; reflexivity|hspace|apply word0|]. split.
  - apply ns_selects_a; [left|..]; reflexivity.
  - exists r_no_ports. split; [apply entry_in; left; auto|]. split; [apply b_source; right; left; auto|]. split; [intros [l E]; discriminate|]. split; [|intros [l E]; discriminate].
    intros _. split; [reflexivity|]. eexists. eexists. eexists. split; [reflexivity|]. split; [left; reflexivity|]. split; [eexists; split; reflexivity|].
    split; [split|split; [split|split; split]]; try (intros l E; discriminate E).
    + intros l E N. injection E as <-. congruence.
    + apply get_method. reflexivity.
Qed.
(** F57: the principal of an account with a dot selects the pods of another account. *)
Definition r_dot : list (string * yaml) := [("from", YList [YMap [("source", YMap [("principals", YList [YStr "cluster.local/ns/ns/sa/web.v2"])])]])].
Definition dot_doc : yaml := ap "p" "ns" [("rules", YList [YMap r_dot])].
Theorem C53_dotted_account_refuted : ~ iread_exactly ex_cl2 dot_sa dot_doc.
Proof.
  apply (imisread _ _ _ (hconn (idx pa) (idx pb) 6 80 0 0 1) [] (text "/") true); [vm_compute; reflexivity|hspace|apply word0|].
  intros (m & Hm & _ & H & _). apply entry_only in Hm. subst m. destruct H as (l & e & s & El & He & (d & -> & Es) & (_ & _ & H & _)); [eexists; reflexivity|].
  injection El as <-. one_entry He. cbn in Es. injection Es as <-. destruct H as (_ & H & _); [left; eexists; reflexivity|].
  destruct (H _ eq_refl ltac:(discriminate)) as (e & [<-|[]] & ns & acc & (i & Ei & _ & Hns & Hacc) & s & E & V). injection E as <-.
  assert (E : PN 0 i = PN 0 "ns/a") by (rewrite <- Ei; vm_compute; reflexivity). injection E as ->. vm_compute in Hns, Hacc. subst acc. injection Hns as <-.
  apply exact_value in V; [discriminate V|]. cbn. intuition discriminate.
Qed.
(** F55: a source with notIpBlocks only is not read (ValueError), though it matches connections. *)
Definition r_not_ips : list (string * yaml) := [("from", YList [YMap [("source", YMap [("notIpBlocks", YList [YStr "10.0.0.0/8"])])]])].
Definition not_ips_doc : yaml := ap "p" "ns" [("rules", YList [YMap r_not_ips])].
Theorem C53_not_ip_blocks_refuted : iparse ex_cl ex_sa not_ips_doc = None /\
  exists pt h w, a_space std_dom pt /\ words_at icode pt h w /\ ap_selects ex_cl not_ips_doc (a_dst ex_reg pt) /\ ap_entry_matches ex_reg ex_cl ex_net ex_sa not_ips_doc pt h w.
Proof.
  split; [vm_compute; reflexivity|]. exists (hconn (11 * 2 ^ 24) (idx pa) 6 80 0 0 1), [], (text "/"). split; [hspace|]. split; [apply word0|]. split.
  - apply ns_selects_a; [left|..]; reflexivity.
  - assert (E : a_src ex_reg (hconn (11 * 2 ^ 24) (idx pa) 6 80 0 0 1) = PA (11 * 2 ^ 24)) by (vm_compute; reflexivity).
    assert (IA : is_addr (PA (11 * 2 ^ 24))) by (left; vm_compute; split; discriminate).
    exists r_not_ips. split; [apply entry_in; left; auto|]. rewrite E. split; [right; exact IA|]. split; [|split; intros [l F]; discriminate].
    intros _. eexists. eexists. eexists. split; [reflexivity|]. split; [left; reflexivity|]. split; [eexists; split; reflexivity|].
    split; [right; exact IA|]. split; [intros [[l F]|[l F]]; discriminate|]. split; [intros [[l F]|[l F]]; discriminate|]. intros _. split; [exact IA|].
    split; [intros l F; discriminate|]. intros l F e He. injection F as <-. destruct He as [<-|[]].
    intros (c & [six n] & Ec & Ea & _ & H1 & H2). injection Ec as <-. cbn [is6 c6] in H1. subst six. injection Ea as Ea. cbn [pos is6 num] in Ea. subst n. vm_compute in H2. discriminate H2.
Qed.
(** F56: with a host endpoint in the cluster, no principal is read (AttributeError). *)
Theorem C53_host_endpoint_refuted : iparse ex_cl ex_sa allow_accounts = None /\
  exists pt h w, a_space std_dom pt /\ words_at icode pt h w /\ ap_selects ex_cl allow_accounts (a_dst ex_reg pt) /\ ap_entry_matches ex_reg ex_cl ex_net ex_sa allow_accounts pt h w.
Proof.
  split; [vm_compute; reflexivity|]. exists (hconn (idx pa) (idx pa) 6 80 0 0 1), [], (text "/"). split; [hspace|]. split; [apply word0|]. split.
  - apply ns_selects_a; [left|..]; reflexivity.
  - assert (E : a_src ex_reg (hconn (idx pa) (idx pa) 6 80 0 0 1) = PN 0 "ns/a") by (vm_compute; reflexivity).
    assert (SP : source_point ex_cl (PN 0 "ns/a")) by (left; split; [left; reflexivity|vm_compute; discriminate]).
    assert (RA : runs_as ex_cl ex_sa (PN 0 "ns/a") "ns" "web") by (exists "ns/a"; repeat split; [left|..]; reflexivity).
    exists r_web. split; [apply entry_in; left; auto|]. rewrite E. split; [exact SP|]. split; [|split; intros [l F]; discriminate].
    intros _. eexists. eexists. eexists. split; [reflexivity|]. split; [left; reflexivity|]. split; [eexists; split; reflexivity|].
    split; [exact SP|]. split; [intros [[l F]|[l F]]; discriminate|]. split; [|intros [[l F]|[l F]]; discriminate].
    intros _. split; [exists "ns", "web"; exact RA|]. split; [|intros l F; discriminate].
    intros l F _. injection F as <-. exists (YStr "cluster.local/ns/ns/sa/web"). split; [left; auto|]. exists "ns", "web". split; [exact RA|].
    eexists. split; [reflexivity|]. apply exact_value; [cbn; intuition discriminate|reflexivity].
Qed.
(** F60: an empty selector in the root namespace selects the host endpoints. *)
Definition empty_selector_doc : yaml := ap "p" "istio-config" [("selector", YMap [])].
Theorem C53_empty_selector_refuted : ~ forall y p, iparse ex_cl ex_sa y = Some (Some p) -> forall x, pt_in x (p_selected p) -> ap_selects ex_cl y x.
Proof.
  intros X. assert (E : exists p, iparse ex_cl ex_sa empty_selector_doc = Some (Some p) /\ pt_in (PN 1 "hep") (p_selected p)) by (eexists; split; [vm_compute; reflexivity|vm_compute; auto 10]).
  destruct E as (p & E & H). destruct (X _ p E (PN 1 "hep") H) as (name & ns & sp & i & _ & F & _). discriminate F.
Qed.
(** F63: a document without a spec - nothing is allowed - selects nothing. *)
Definition no_spec_doc : yaml :=
  YMap [("apiVersion", YStr "security.istio.io/v1beta1"); ("kind", YStr "AuthorizationPolicy"); ("metadata", YMap [("name", YStr "p"); ("namespace", YStr "ns")])].
Theorem C53_no_spec_refuted : ~ forall y p, iparse ex_cl ex_sa y = Some (Some p) -> forall x, ap_selects ex_cl y x -> pt_in x (p_selected p).
Proof.
  intros X. assert (E : exists p, iparse ex_cl ex_sa no_spec_doc = Some (Some p) /\ p_selected p = []) by (eexists; split; vm_compute; reflexivity).
  destruct E as (p & E & F). specialize (X _ p E (PN 0 "ns/a")). rewrite F in X. apply X. exists "p", "ns", [], "ns/a".
  split; [eexists; eexists; split; [reflexivity|]; repeat (split; [reflexivity|]); split; [right; auto|left; split; [reflexivity|discriminate]]|].
  split; auto. split; [left; auto|]. split; [right; reflexivity|]. intros s l k v G. discriminate.
Qed.
Print Assumptions C53_empty_list_refuted.
Print Assumptions C53_dotted_account_refuted.
Print Assumptions C53_not_ip_blocks_refuted.
Print Assumptions C53_host_endpoint_refuted.
Print Assumptions C53_empty_selector_refuted.
Print Assumptions C53_no_spec_refuted.
