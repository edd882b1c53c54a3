(** * Concrete Services and Sidecars: the theorems of PropServices.v and PropSidecar.v apply to them; and documents for which C55
    fails without its conditions (findings F64-F70). *)
From Coq Require Import ZArith List Bool Arith Lia String Ascii Permutation.
From Verif Require Import IntervalModel IntervalFacts HyperModel HyperFacts HyperOps HyperDims HyperTop HyperInst
                          PropHyperCube ConnModel ConnFacts TextModel TextFacts PortProtoModel PortProtoFacts PeerModel PeerFacts PeerSetFacts
                          PolicyModel PolicyLaws PolicyFacts LayerFacts OrderFacts ConnAlg StdDims PropLayers YamlModel ClusterModel K8sParserModel SelectorFacts
                          ConnDict NamedExcl PropSelectors K8sParserFacts PropK8sParser CalicoSelectorModel CalicoSelectorFacts CalicoSelectorGram
                          CalicoSelectorSets CalicoParserModel CalicoParserFacts CalicoRuleFacts PropCalicoSelectors PropCalicoParser PropCalicoCases
                          IstioValueModel PropIstioValues IstioParserModel IstioParserFacts IstioRuleFacts PropIstioParser PropIstioCases
                          ServiceModel PropServices SidecarModel SidecarFacts SidecarEgressFacts PropSidecar.
From Verif Require PropQueryCases.
Import ListNotations.
Local Open Scope string_scope.
Local Open Scope list_scope.
Local Open Scope nat_scope.

(** ** Services *)
Definition svc (name ns app : string) (port : list (string * yaml)) : yaml :=
  YMap [("apiVersion", YStr "v1"); ("kind", YStr "Service"); ("metadata", YMap [("name", YStr name); ("namespace", YStr ns)]);
        ("spec", YMap [("selector", YMap [("app", YStr app)]); ("ports", YList [YMap port])])].
Definition svc_web := svc "web" "ns" "web" [("port", YInt 80); ("targetPort", YStr "http")].
Definition svc_db := svc "db" "ns" "db" [("port", YInt 5432)].
Definition svc_web2 := svc "web" "other" "web" [("port", YInt 80); ("targetPort", YInt 8080)].
Definition ex_ks : list k8s_service := flat_map (fun y => match parse_service y with Some (Some s) => [s] | _ => [] end) [svc_web; svc_db; svc_web2].
Definition ex_svcs : list service := [Service "web" "ns" [pa]; Service "db" "ns" [pb]; Service "web" "other" [pc]].
Example ex_services : set_services ex_cl ex_ks = Some ex_svcs.
Proof. vm_compute. reflexivity. Qed.
Example ex_services_ok : services_ok ex_cl ex_svcs.
Proof. apply (C57_services_usable ex_cl ex_cl_ok ex_ks ex_svcs ex_services). intros s [<-|[<-|[<-|[]]]]; reflexivity. Qed.
Lemma one_port : forall n s app m, port_names_differ (svc n s app m).
Proof.
  intros n s app m n' s' sp l (mm & md & E & _ & _ & _ & _ & Esp & _) El pre m1 mid m2 post Es _ _. injection E as <-. cbn in Esp. injection Esp as <-. cbn in El. injection El as <-.
  exfalso. destruct pre as [|? pre]; [destruct mid; discriminate|]. destruct pre; discriminate.
Qed.
(** The pod that defines the port http is a target, others in the namespace are not. *)
Example ex_C57 : exists ks r, parse_service svc_web = Some (Some ks) /\ target_pods ex_cl ks = Some r /\
  (forall q, In q r <-> targets ex_cl svc_web q) /\ r = [pa] /\ ~ targets ex_cl svc_web pc /\
  (* a and another target port: no pod has it *)
  (exists ks', parse_service (svc "web" "ns" "web" [("port", YInt 80); ("targetPort", YStr "https")]) = Some (Some ks') /\ target_pods ex_cl ks' = Some []).
Proof.
  eexists. eexists. split; [vm_compute; reflexivity|]. split; [vm_compute; reflexivity|].
  assert (M : forall q, In q [pa] <-> targets ex_cl svc_web q).
  { intros q. refine (C57_target_pods ex_cl ex_cl_ok svc_web _ _ _ _ (one_port _ _ _ _) q); vm_compute; reflexivity. }
  split; [exact M|]. split; [reflexivity|]. split; [intros H; apply M in H as [H|[]]; discriminate|].
  eexists. split; vm_compute; reflexivity.
Qed.
(** A later service of the same name takes the place of an earlier one. *)
Example ex_C57_last : set_services ex_cl (ex_ks ++ [K8sService "web" "ns" [("app", YStr "db")] []]) =
  Some [Service "web" "ns" [pb]; Service "db" "ns" [pb]; Service "web" "other" [pc]].
Proof. vm_compute. reflexivity. Qed.

(** ** Sidecars *)
Definition sc (name ns : string) (sp : list (string * yaml)) : yaml :=
  YMap [("apiVersion", YStr "networking.istio.io/v1beta1"); ("kind", YStr "Sidecar");
        ("metadata", YMap [("name", YStr name); ("namespace", YStr ns)]); ("spec", YMap sp)].
Definition hosts (hs : list string) : string * yaml := ("egress", YList [YMap [("hosts", YList (map YStr hs))]]).
Definition front : string * yaml := ("workloadSelector", YMap [("labels", YMap [("tier", YStr "front")])]).
Definition sc_front := sc "front" "ns" [front; hosts ["./db.ns.svc.cluster.local"; "other/*"]].
Definition sc_ns := sc "default" "ns" [hosts ["~/*"]; ("outboundTrafficPolicy", YMap [("mode", YStr "REGISTRY_ONLY")])].
Definition sc_global := sc "default" "istio-config" [hosts ["./*"; "*/www.ibm.com"]].
Definition ex_sdocs : list yaml := [sc_ns; sc_global; sc_front].
Definition ex_sidecars (docs : list yaml) : option (list policy) := sidecars_of ex_cl ex_svcs ex_ops ex_mk docs.
Definition ex_spols : list policy := match ex_sidecars ex_sdocs with Some l => l | None => [] end.
Example ex_sparse : ex_sidecars ex_sdocs = Some ex_spols.
Proof. vm_compute. reflexivity. Qed.
(** Each pod keeps the Sidecar with the highest priority. *)
Example ex_kept : map (fun p => (p_name p, p_ns p, p_selected p)) ex_spols = [("front", "ns", [pa]); ("default", "ns", [pb]); ("default", "istio-config", [pc])].
Proof. vm_compute. reflexivity. Qed.
Lemma sc_is : forall n s sp, s <> "" -> sc_doc (sc n s sp) n s sp.
Proof. intros n s sp H. eexists. eexists. eexists. split; [reflexivity|]. split; [reflexivity|]. split; [reflexivity|]. split; [cbn; auto|]. repeat (split; [reflexivity|]). left. split; auto. Qed.
Example ex_C41 : forall x, (exists y, In y ex_sdocs /\ sc_selects ex_cl y x) <-> exists! i, exists p, nth_error ex_spols i = Some p /\ pt_in x (p_selected p).
Proof. exact (C41_each_workload_has_one ex_cl ex_cl_ok ex_kinds_ok ex_svcs ex_ops ex_mk ex_sdocs ex_spols ex_sparse). Qed.
(** Two defaults of a namespace: the parse fails (F64). *)
Lemma rank1 : forall n s hs t, s <> "" -> s <> "istio-config" -> assoc_s "workloadSelector" t = None -> sc_rank (sc n s (hosts hs :: t)) 1.
Proof. intros n s hs t H H' A. exists n, s, (hosts hs :: t). split; [apply sc_is; auto|]. right. left. split; auto. unfold yget. cbn. rewrite A. reflexivity. Qed.
Lemma ns_pod : forall n hs t, assoc_s "workloadSelector" t = None -> sc_selects ex_cl (sc n "ns" (hosts hs :: t)) (PN 0 "ns/a").
Proof.
  intros n hs t A. exists n, "ns", (hosts hs :: t), "ns/a". split; [apply sc_is; discriminate|]. split; auto. split; [left; reflexivity|]. split; [right; reflexivity|].
  intros s l k v E. unfold yget in E. cbn in E. rewrite A in E. discriminate.
Qed.
Example ex_C41_tie : ex_sidecars [sc_ns; sc "other" "ns" [hosts ["*/*"]]] = None.
Proof.
  apply (C41_ties_rejected ex_cl ex_cl_ok ex_kinds_ok ex_svcs ex_ops ex_mk _ 0 1 sc_ns (sc "other" "ns" [hosts ["*/*"]]) (PN 0 "ns/a") 1); auto;
    first [apply rank1; [discriminate|discriminate|reflexivity] | apply ns_pod; reflexivity].
Qed.

Lemma one_sc : forall n s sp n' s' sp', s <> "" -> sc_doc (sc n s sp) n' s' sp' -> n' = n /\ s' = s /\ sp' = sp.
Proof. intros n s sp n' s' sp' H D. exact (sc_doc_fn _ _ _ _ _ _ _ (sc_is n s sp H) D). Qed.
Lemma one_host : forall hs a b, host_in (YMap [("hosts", YList (map YStr hs))]) a b -> In (a ++ "/" ++ b)%string hs.
Proof.
  intros hs a b (m & l & h & E & El & H & ->). injection E as <-. cbn in El. injection El as <-. apply in_map_iff in H as (h & E & H). injection E as ->. exact H.
Qed.
Lemma slash : forall a b a' b', has_char "/" a = false -> has_char "/" a' = false -> (a ++ "/" ++ b)%string = (a' ++ "/" ++ b')%string -> a = a' /\ b = b'.
Proof.
  induction a as [|c a IH]; intros b a' b' H H' E; destruct a' as [|c' a']; cbn in *.
  - injection E as <-. auto.
  - injection E as <- E. discriminate.
  - injection E as -> E. discriminate.
  - injection E as <- E. apply orb_false_iff in H as [H1 H2], H' as [H3 H4]. destruct (IH b a' b' H2 H4 E) as [-> ->]. auto.
Qed.
(** Hosts with one slash are split at it. *)
Lemma host_split : forall h a b a0 b0, has_char "/" a0 = false -> has_char "/" b0 = false -> h = (a0 ++ "/" ++ b0)%string -> h = (a ++ "/" ++ b)%string -> a = a0 /\ b = b0.
Proof.
  intros h a b a0 b0 H0 H1 E0 E. assert (HS : has_char "/" a = false).
  { rewrite E0 in E. clear E0. revert a0 H0 E. induction a as [|c a IH]; intros a0 H0 E; auto. destruct a0 as [|c0 a0].
    - cbn in E. injection E as <- E. exfalso. subst b0. rewrite has_char_app in H1. cbn in H1. rewrite orb_true_r in H1. discriminate.
    - cbn in E, H0. injection E as <- E. apply orb_false_iff in H0 as [H2 H3]. cbn. rewrite H2. apply (IH a0 H3 E). }
  apply slash; auto. congruence.
Qed.
Ltac host H := match type of H with ?h = _ => let p := eval vm_compute in (host_parts h) in
  match p with Some (?a0, ?b0) => apply (host_split h _ _ a0 b0 eq_refl eq_refl eq_refl) in H as [-> ->] end end.
Example ex_sbenign : forall y, In y ex_sdocs -> benign_sc ex_cl ex_svcs y.
Proof.
  intros y [<-|[<-|[<-|[]]]].
  - intros n s sp l D El. destruct (one_sc "default" "ns" _ _ _ _ ltac:(discriminate) D) as (-> & -> & ->). injection El as <-. split; [discriminate|].
    intros e [<-|[]] a b H. apply (one_host ["~/*"]) in H as [H|[]]. host H. left. reflexivity.
  - intros n s sp l D El. destruct (one_sc "default" "istio-config" _ _ _ _ ltac:(discriminate) D) as (-> & -> & ->). injection El as <-. split; [discriminate|].
    intros e [<-|[]] a b H. apply (one_host ["./*"; "*/www.ibm.com"]) in H as [H|[H|[]]]; host H; [left; reflexivity|].
    right. right. right. split; [reflexivity|]. split.
    + intros s [<-|[<-|[<-|[]]]] _ [H|[H|(suf & p & H & _)]]; vm_compute in H; discriminate H.
    + intros d H _. cbn in H. unfold pa, pb, pc, hep, dns in H. left. intuition congruence.
  - intros n s sp l D El. destruct (one_sc "front" "ns" _ _ _ _ ltac:(discriminate) D) as (-> & -> & ->). injection El as <-. split; [discriminate|].
    intros e [<-|[]] a b H. apply (one_host ["./db.ns.svc.cluster.local"; "other/*"]) in H as [H|[H|[]]]; host H; [|left; reflexivity].
    right. left. exists "db", "ns". split; [reflexivity|]. split; [reflexivity|]. split; [discriminate|]. split.
    + intros s [<-|[<-|[<-|[]]]] _ E; try reflexivity; discriminate.
    + intros H. cbn in H. unfold pa, pb, pc, hep, dns in H. intuition discriminate.
Qed.
Example ex_C55 : forall pt, a_space std_dom pt -> pt 2 = 6%Z ->
  (sidecar_matches ex_reg ex_spols pt \/ ~ sidecar_restricts ex_spols (a_src ex_reg pt) <-> sidecars_say ex_cl ex_svcs ex_sdocs (a_src ex_reg pt) (a_dst ex_reg pt)).
Proof. exact (C55_outbound ex_reg ex_reg_ok ex_cl ex_cl_ok ex_kinds_ok ex_cl_container ex_cl_ports ex_svcs ex_services_ok ex_sdocs ex_spols ex_sparse ex_sbenign). Qed.
(** The whole configuration: the documents of PropIstioCases.v and the Sidecars. *)
Example ex_skeys : NoDup (map (fun p => (full_name p, p_kind p)) (ex_added ++ ex_spols)).
Proof. vm_compute. repeat (constructor; [cbn; intuition discriminate|]). constructor. Qed.
Definition ex_whole := all_allowed (config_conns ex_ops (cl_peers ex_cl) (lays (add_all pcont_init (ex_added ++ ex_spols))) only_all_allowed).
Example ex_C56 : exists sorted, Permutation ex_docs sorted /\
  (forall pt h w, a_space std_dom pt -> words_at icode pt h w -> endpoint ex_cl (a_src ex_reg pt) -> endpoint ex_cl (a_dst ex_reg pt) ->
   ~ (is_addr (a_src ex_reg pt) /\ is_addr (a_dst ex_reg pt)) ->
   (pt @ ex_whole <-> doc_side ex_reg ex_cl ex_net ex_profiles sorted true pt /\ doc_side ex_reg ex_cl ex_net ex_profiles sorted false pt /\
                    istio_says ex_reg ex_cl ex_svcs ex_net ex_sa ex_adocs ex_sdocs pt h w)).
Proof.
  assert (AB : forall y, In y ex_adocs -> benign_ap ex_cl ex_sa icode idfa y) by (intros y [<-|[<-|[]]]; [apply ex_benign_web|apply ex_benign_deny]).
  assert (AP : Permutation (ex_pols ++ ex_apols) ex_added) by apply Permutation_app_comm.
  destruct (C56_documents_of_all_layers ex_reg ex_reg_ok ex_cl ex_cl_ok ex_kinds_ok ex_cl_container ex_cl_ports ex_svcs ex_services_ok ex_net ex_net_ok ex_sa icode idfa icode_ok
    ex_nss ex_nss_ok eq_refl ex_profiles ex_docs ex_pols ex_cdocs_parse ex_cdocs_benign ex_adocs ex_apols ex_adocs_parse AB ex_sdocs ex_spols ex_sparse ex_sbenign ex_added AP ex_skeys)
    as (sorted & P & _ & X).
  exists sorted. split; auto. exact (proj1 (X (or_introl ex_cdocs_no_pass))).
Qed.
(** The Sidecars alone.  Over TCP, a reaches b, c, the name www.ibm.com and addresses, but not itself; b reaches nothing outside; c reaches itself
    and www.ibm.com, not a; UDP is not restricted. *)
Definition ex_side := all_allowed (config_conns ex_ops (cl_peers ex_cl) (lays (add_all pcont_init ex_spols)) only_all_allowed).
Definition ex_out (s d pr : Z) : bool := PropQueryCases.inside (hconn s d pr 80 0 1 1) ex_side.
Example ex_out_where :
  ex_out (idx pa) (idx pb) 6 = true /\ ex_out (idx pa) (idx pc) 6 = true /\ ex_out (idx pa) (idx dns) 6 = true /\ ex_out (idx pa) (10 * 2 ^ 24) 6 = true /\
  ex_out (idx pa) (idx pa) 6 = false /\ ex_out (idx pb) (idx pa) 6 = false /\ ex_out (idx pb) (10 * 2 ^ 24) 6 = false /\ ex_out (idx pb) (idx dns) 6 = false /\
  ex_out (idx pc) (idx pc) 6 = true /\ ex_out (idx pc) (idx dns) 6 = true /\ ex_out (idx pc) (idx pa) 6 = false /\ ex_out (idx pb) (idx pa) 17 = true.
Proof. repeat apply conj; vm_compute; reflexivity. Qed.

(** ** Documents read differently *)
Definition sread_exactly (docs : list yaml) : Prop := forall pols, ex_sidecars docs = Some pols -> forall pt, a_space std_dom pt -> pt 2 = 6%Z ->
  (sidecar_matches ex_reg pols pt \/ ~ sidecar_restricts pols (a_src ex_reg pt) <-> sidecars_say ex_cl ex_svcs docs (a_src ex_reg pt) (a_dst ex_reg pt)).
(** Whether the pod is restricted, and whether a rule matches. *)
Definition ssaid (docs : list yaml) (i : string) (pt : dim -> Z) : option (bool * bool) :=
  match ex_sidecars docs with
  | Some l => let ps := filter (fun p => p_affects_eg p && pmem (Named 0 i) (p_selected p)) l in
              Some (negb (Nat.eqb (List.length ps) 0), existsb (fun p => existsb (fun r => PropQueryCases.inside pt (r_props r)) (p_egress p)) ps)
  | None => None
  end.
Lemma smisread : forall y i pt b, ssaid [y] i pt = Some (true, b) -> a_src ex_reg pt = PN 0 i -> a_space std_dom pt -> pt 2 = 6%Z -> sc_selects ex_cl y (PN 0 i) -> has_egress y ->
  (if b then ~ sidecar_allows ex_cl ex_svcs y (PN 0 i) (a_dst ex_reg pt) else sidecar_allows ex_cl ex_svcs y (PN 0 i) (a_dst ex_reg pt)) -> ~ sread_exactly [y].
Proof.
  intros y i pt b E Ei Sp T Sy He H X. unfold ssaid in E. destruct (ex_sidecars [y]) as [pols|] eqn:Ep; [|discriminate]. specialize (X pols Ep pt Sp T). rewrite Ei in X. injection E as E1 E2.
  assert (KS : forall p, In p pols -> p_kind p = TSidecar).
  { intros p Hp. apply (C55_well_formed ex_reg ex_reg_ok ex_cl ex_cl_ok ex_kinds_ok ex_cl_container ex_cl_ports ex_svcs ex_services_ok [y] pols Ep p Hp). }
  assert (MS : sidecar_matches ex_reg pols pt <-> b = true).
  { rewrite <- E2. rewrite existsb_exists. unfold sidecar_matches. rewrite Ei. split.
    - intros (p & Hp & _ & Ha & S & r & Hr & M). exists p. split; [apply filter_In; split; auto; rewrite Ha; apply pmem_In; exact S|]. apply existsb_exists. exists r. split; auto. apply PropQueryCases.inside_spec. auto.
    - intros (p & Hp & M). apply filter_In in Hp as [Hp F]. apply andb_true_iff in F as [Ha S]. apply existsb_exists in M as (r & Hr & M). apply PropQueryCases.inside_spec in M.
      exists p. split; auto. split; auto. split; auto. split; [cbn; apply pmem_In; auto|]. exists r. auto. }
  assert (G : governs ex_cl [y] y (PN 0 i)).
  { split; [left; auto|]. split; auto. intros y' r r' [<-|[]] _ R1 R2. rewrite (sc_rank_fn _ _ _ R1 R2). auto. }
  destruct b.
  - apply H. apply (proj1 X); auto. left. apply MS. auto.
  - destruct (proj2 X) as [M|M].
    + intros y' ([<-|[]] & _) _. exact H.
    + apply MS in M. discriminate.
    + apply M. destruct (filter (fun p => p_affects_eg p && pmem (Named 0 i) (p_selected p)) pols) as [|p l] eqn:Ef; [discriminate|].
      assert (Hp : In p (filter (fun p => p_affects_eg p && pmem (Named 0 i) (p_selected p)) pols)) by (rewrite Ef; left; auto).
      apply filter_In in Hp as [Hp F]. apply andb_true_iff in F as [Ha S]. exists p. split; auto. split; auto. split; auto. cbn. apply pmem_In. auto.
Qed.
Lemma egress_of : forall n s hs t, s <> "" -> has_egress (sc n s (hosts hs :: t)).
Proof. intros n s hs t H. exists n, s, (hosts hs :: t). split; [apply sc_is; auto|discriminate]. Qed.
Lemma allows_inv : forall n s hs t x z, s <> "" -> sidecar_allows ex_cl ex_svcs (sc n s (hosts hs :: t)) x z -> is_addr z \/ exists a b, In (a ++ "/" ++ b)%string hs /\ reaches ex_cl ex_svcs s a b x z.
Proof.
  intros n s hs t x z Hs (n' & s' & sp & l & D & El & H). destruct (one_sc _ _ _ _ _ _ Hs D) as (-> & -> & ->). injection El as <-.
  destruct H as [[_ H]|(e & a & b & [<-|[]] & HI & H)]; auto. right. exists a, b. split; auto. apply one_host in HI. auto.
Qed.
Lemma allows_host : forall n s hs t x z a b, s <> "" -> In (a ++ "/" ++ b)%string hs -> reaches ex_cl ex_svcs s a b x z -> sidecar_allows ex_cl ex_svcs (sc n s (hosts hs :: t)) x z.
Proof.
  intros n s hs t x z a b Hs H HR. exists n, s, (hosts hs :: t), [YMap [("hosts", YList (map YStr hs))]]. split; [apply sc_is; auto|]. split; [reflexivity|]. right.
  exists (YMap [("hosts", YList (map YStr hs))]), a, b. split; [left; auto|]. split; auto. exists [("hosts", YList (map YStr hs))], (map YStr hs), (a ++ "/" ++ b)%string.
  split; auto. split; auto. split; auto. apply (in_map YStr). auto.
Qed.
Ltac not_named H := destruct H as [H|[H|(suf & p & H & H')]]; [vm_compute in H; discriminate H|vm_compute in H; discriminate H|].
(** F65: the namespace in a name is not looked at: the host means web in the namespace ns, and web in the namespace other is reached. *)
Definition sc_ns_ignored := sc "s" "ns" [hosts ["*/web.ns.svc.cluster.local"]].
Theorem C55_namespace_of_a_name_refuted : ~ sread_exactly [sc_ns_ignored].
Proof.
  apply (smisread _ "ns/a" (hconn (idx pa) (idx pc) 6 80 0 1 1) true); [vm_compute; reflexivity|vm_compute; reflexivity|hspace|reflexivity|apply ns_pod; reflexivity|apply egress_of; discriminate|].
  assert (E : a_dst ex_reg (hconn (idx pa) (idx pc) 6 80 0 1 1) = PN 0 "ns/c") by (vm_compute; reflexivity). rewrite E. intros H.
  apply allows_inv in H as [[]|(a & b & [H|[]] & HR)]; [|discriminate]. host H. destruct HR as [(s & i & Hs & Ei & Hi & _ & HN & _)|(d & F & _)]; [|discriminate]. injection Ei as <-.
  destruct Hs as [<-|[<-|[<-|[]]]]; cbn in Hi; unfold pa, pb in Hi; try (destruct Hi as [Hi|[]]; discriminate Hi). not_named HN. discriminate HN.
Qed.
(** F66: a wildcard before a name with svc.cluster.local stands for all names, also external ones. *)
Definition sc_star := sc "s" "ns" [hosts ["*/*.ns.svc.cluster.local"]].
Theorem C55_wildcard_name_refuted : ~ sread_exactly [sc_star].
Proof.
  apply (smisread _ "ns/a" (hconn (idx pa) (idx dns) 6 80 0 1 1) true); [vm_compute; reflexivity|vm_compute; reflexivity|hspace|reflexivity|apply ns_pod; reflexivity|apply egress_of; discriminate|].
  assert (E : a_dst ex_reg (hconn (idx pa) (idx dns) 6 80 0 1 1) = PN 2 "www.ibm.com") by (vm_compute; reflexivity). rewrite E. intros H.
  apply allows_inv in H as [[]|(a & b & [H|[]] & HR)]; [|discriminate]. host H. destruct HR as [(s & i & _ & Ei & _)|(d & F & _ & _ & HN)]; [discriminate|]. injection F as <-.
  not_named HN. injection HN as <-. do 11 (destruct p as [|? p]; [discriminate H'|cbn in H'; injection H' as _ H']). destruct p; discriminate H'.
Qed.
(** F67: a wildcard before a shorter suffix reaches no service. *)
Definition sc_local := sc "s" "ns" [hosts ["*/*.cluster.local"]].
Theorem C55_short_suffix_refuted : ~ sread_exactly [sc_local].
Proof.
  apply (smisread _ "ns/a" (hconn (idx pa) (idx pb) 6 80 0 1 1) false); [vm_compute; reflexivity|vm_compute; reflexivity|hspace|reflexivity|apply ns_pod; reflexivity|apply egress_of; discriminate|].
  assert (E : a_dst ex_reg (hconn (idx pa) (idx pb) 6 80 0 1 1) = PN 0 "ns/b") by (vm_compute; reflexivity). rewrite E.
  apply (allows_host _ _ _ _ _ _ "*" "*.cluster.local"); [discriminate|left; reflexivity|]. left. exists (Service "db" "ns" [pb]), "ns/b". split; [right; left; auto|]. split; auto. split; [left; auto|].
  split; [left; auto|]. split; [|intros H; discriminate]. right. right. exists "cluster.local", "db.ns.svc". split; reflexivity.
Qed.
(** F68: an empty list of egress entries also forbids the addresses that ALLOW_ANY allows. *)
Definition sc_empty := sc "s" "ns" [("egress", YList [])].
Theorem C55_empty_egress_refuted : ~ sread_exactly [sc_empty].
Proof.
  apply (smisread _ "ns/a" (hconn (idx pa) (10 * 2 ^ 24) 6 80 0 1 1) false); [vm_compute; reflexivity|vm_compute; reflexivity|hspace|reflexivity| | |].
  - exists "s", "ns", [("egress", YList [])], "ns/a". split; [apply sc_is; discriminate|]. split; auto. split; [left; reflexivity|]. split; [right; reflexivity|]. intros s l k v F. discriminate.
  - exists "s", "ns", [("egress", YList [])]. split; [apply sc_is; discriminate|discriminate].
  - exists "s", "ns", [("egress", YList [])], []. split; [apply sc_is; discriminate|]. split; [reflexivity|]. left. split.
    + intros (n & s & sp & o & D & F & _). destruct (one_sc "s" "ns" _ _ _ _ ltac:(discriminate) D) as (_ & _ & ->). discriminate F.
    + assert (E : a_dst ex_reg (hconn (idx pa) (10 * 2 ^ 24) 6 80 0 1 1) = PA (10 * 2 ^ 24)) by (vm_compute; reflexivity). rewrite E. left. vm_compute. split; discriminate.
Qed.
(** F69: REGISTRY_ONLY without egress entries restricts nothing: the pod still reaches all addresses. *)
Definition sc_registry := sc "s" "ns" [("outboundTrafficPolicy", YMap [("mode", YStr "REGISTRY_ONLY")])].
Theorem C55_registry_only_refuted : registry_only sc_registry /\ sc_selects ex_cl sc_registry (PN 0 "ns/a") /\
  exists pols, ex_sidecars [sc_registry] = Some pols /\ ~ sidecar_restricts pols (PN 0 "ns/a") /\
    PropQueryCases.inside (hconn (idx pa) (10 * 2 ^ 24) 6 80 0 1 1)
      (all_allowed (config_conns ex_ops (cl_peers ex_cl) (lays (add_all pcont_init pols)) only_all_allowed)) = true.
Proof.
  split; [|split].
  - exists "s", "ns", [("outboundTrafficPolicy", YMap [("mode", YStr "REGISTRY_ONLY")])]. eexists. split; [apply sc_is; discriminate|]. split; reflexivity.
  - exists "s", "ns", [("outboundTrafficPolicy", YMap [("mode", YStr "REGISTRY_ONLY")])], "ns/a". split; [apply sc_is; discriminate|]. split; auto. split; [left; reflexivity|].
    split; [right; reflexivity|]. intros s l k v F. discriminate.
  - eexists. split; [vm_compute; reflexivity|]. split; [|vm_compute; reflexivity]. intros (p & [<-|[]] & _ & F & _). discriminate F.
Qed.
(** F70: a wildcard host does not reach an external name that itself starts with a wildcard. *)
Theorem C55_wildcard_entry_refuted : exists cl d, In (Named 2 d) (cl_peers cl) /\ name_part "*.com" d /\ host_dns_name cl [] "*.com" (dns_entries cl) = Some [].
Proof.
  exists (Cluster [Named 2 "*.ibm.com"] (fun _ => []) (fun _ => []) (fun _ => None) (fun _ => []) (fun _ => [])), "*.ibm.com". split; [left; auto|]. split; [|vm_compute; reflexivity].
  right. right. exists "com", "*.ibm". split; reflexivity.
Qed.
Print Assumptions C55_namespace_of_a_name_refuted.
Print Assumptions C55_wildcard_name_refuted.
Print Assumptions C55_short_suffix_refuted.
Print Assumptions C55_empty_egress_refuted.
Print Assumptions C55_registry_only_refuted.
Print Assumptions C55_wildcard_entry_refuted.
