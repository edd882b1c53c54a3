(** * C59: a directory with topology and policy documents. *)
From Coq Require Import ZArith List Bool Arith Lia String Ascii Permutation.
From Verif Require Import IntervalModel IntervalFacts HyperModel HyperFacts HyperOps HyperDims HyperTop HyperInst
                          PropHyperCube ConnModel ConnFacts TextModel TextFacts PortProtoModel PortProtoFacts PeerModel PeerFacts PeerSetFacts
                          PolicyModel PolicyLaws PolicyFacts LayerFacts OrderFacts ConnAlg StdDims PropLayers YamlModel ClusterModel K8sParserModel SelectorFacts
                          ConnDict NamedExcl PropSelectors K8sParserFacts PropK8sParser CalicoSelectorModel CalicoSelectorFacts CalicoSelectorGram
                          CalicoSelectorSets CalicoParserModel CalicoParserFacts CalicoRuleFacts PropCalicoParser
                          IstioValueModel PropIstioValues IstioParserModel IstioParserFacts IstioRuleFacts PropIstioParser PropIstioCases ServiceModel PropServices SidecarModel
                          SidecarFacts SidecarEgressFacts PropSidecar PropSidecarCases TopologyModel TopologyFacts TopologyDocs TopologyLoad PropTopology PropTopologyCases PropFromDocuments.
From Verif Require PropQueryCases.
Import ListNotations.
Local Open Scope string_scope.
Local Open Scope list_scope.
Local Open Scope nat_scope.

(** The topology is that of PropTopologyCases.v: the deployment web and the pod job in the namespace prod, a host, an external name, a service. *)
Notation dcl := (cluster_of dir_st).
Lemma dir_objects : forall y os k m, In y dir -> listing "" y os -> In (k, m) os ->
  In (YMap m) [ns_y "prod" [("env", "prod")]; deploy_y "prod" "web" 3 [("app", "web")] [("http", 8080%Z)]; pod_y "prod" "job" None "robot" [("app", "job")] [];
   hep_y "host1" [("role", "db")]; entry_y "www.ibm.com"; service_y "prod" "front" [("app", "web")]].
Proof.
  intros y os k m Hy Hl Hm. destruct Hy as [<-|[<-|[<-|[<-|[<-|[]]]]]];
    (eapply listing_is in Hl; [|vm_compute; reflexivity]); subst os;
    repeat (destruct Hm as [Hm|Hm]; [injection Hm as <- <-; vm_compute; tauto|]); destruct Hm.
Qed.
Ltac at_field H := cbn in H; first [destruct H as [H|[H ?]]; [first [injection H as <-|discriminate H]|first [discriminate H|subst]] | idtac].
Example dir_ok : topology_ok dir.
Proof.
  split.
  - intros y os k m md t Hy Hl Hm M T. pose proof (dir_objects y os k m Hy Hl Hm) as O.
    destruct O as [O|[O|[O|[O|[O|[O|[]]]]]]]; injection O as <-; at_field M; at_field T; (split; [discriminate|cbn; intuition discriminate]).
  - intros n (y & os & k & m & nm & pr & entry & number & Hy & Hl & Hm & (em & s & -> & Nm & _ & Nn & _) & P). pose proof (dir_objects y os k m Hy Hl Hm) as O.
    destruct P as [(sp & cs & S & C & -> & I)|(sp & ps & S & C & -> & I)].
    + destruct S as [S|(kind & t & (sp0 & S1 & S2) & S3)].
      * destruct O as [O|[O|[O|[O|[O|[O|[]]]]]]]; injection O as <-; cbn in S; try discriminate S; injection S as <-; cbn in C; destruct C as [C|[_ ->]]; try discriminate C; try destruct I; injection C as <-; destruct I.
      * destruct O as [O|[O|[O|[O|[O|[O|[]]]]]]]; injection O as <-; at_field S1; (destruct S2 as [[_ S2]|(_ & j & js & J1 & J2 & J3)]; [at_field S2|at_field J1; at_field J2; at_field J3]); at_field S3;
          cbn in C; destruct C as [C|[_ ->]]; try discriminate C; try destruct I; injection C as <-; destruct I as [I|[]]; injection I as <-; cbn in Nn; injection Nn as <-; lia.
    + destruct O as [O|[O|[O|[O|[O|[O|[]]]]]]]; injection O as <-; at_field S; cbn in C; destruct C as [C|[_ ->]]; try discriminate C; try destruct I; injection C as <-; destruct I as [I|[]]; injection I as <-; cbn in Nn; injection Nn as <-; lia.
  - intros y s Hy E. assert (X : flat_map services_in dir = [service_y "prod" "front" [("app", "web")]]) by (vm_compute; reflexivity). rewrite X in Hy. destruct Hy as [<-|[]]. vm_compute in E. injection E as <-. reflexivity.
Qed.
Definition dreg : list peer := match register [] (cl_peers dcl) with Some r => r | None => [] end.
Lemma dreg_is : register [] (cl_peers dcl) = Some dreg.
Proof. vm_compute. reflexivity. Qed.
Definition dsvcs : list service := [Service "front" "prod" [Named 0 "prod/web-1"; Named 0 "prod/web-2"]].
Lemma dsvcs_is : services_of dir_st = Some dsvcs.
Proof. vm_compute. reflexivity. Qed.
(** The web pods accept their port http from the pods app=job. *)
Definition kdoc : yaml :=
  YMap [("apiVersion", YStr "networking.k8s.io/v1"); ("kind", YStr "NetworkPolicy"); ("metadata", YMap [("name", YStr "web"); ("namespace", YStr "prod")]);
        ("spec", YMap [("podSelector", sel [("app", "web")] []);
                       ("ingress", YList [YMap [("from", YList [YMap [("podSelector", sel [("app", "job")] [])]]); ("ports", YList [YMap [("port", YStr "http")]])]])])].
Definition dkdocs : list document := [K8sDoc kdoc].
Definition dparse := parse_doc dreg dcl ex_net (profiles_of dir_st).
Definition dkpols : list policy := flat_map (fun d => match dparse d with Some (Some p) => [p] | _ => [] end) dkdocs.
Lemma dk_parse : Forall2 (fun d p => dparse d = Some (Some p)) dkdocs dkpols.
Proof. unfold dkpols. repeat constructor. Qed.
Lemma dk_benign : forall d, In d dkdocs -> doc_benign dreg dcl ex_net (profiles_of dir_st) d.
Proof.
  intros d [<-|[]]. cbn [doc_benign]. split.
  - intros sp (m & E & S). injection E as <-. cbn in S. injection S as <-. cbn. intros _ H. destruct H. reflexivity.
  - intros sp ing r (m & E & S) Hr mm p Em Hp. injection E as <-. cbn in S. injection S as <-. destruct ing; [|destruct Hr]. destruct Hr as [<-|[]]. injection Em as <-.
    destruct Hp as [<-|[]]. intros m E. injection E as <-. intros H. destruct H. reflexivity.
Qed.
(** The pods of prod accept connections only from the namespace prod. *)
Definition r_prod : list (string * yaml) := [("from", YList [YMap [("source", YMap [("namespaces", YList [YStr "prod"])])]])].
Definition dadocs : list yaml := [ap "only-prod" "prod" [("rules", YList [YMap r_prod])]].
Definition dnss : list string := map fst (ts_nss dir_st).
Notation dops := (cube_ops std_dom std_all dreg).
Notation dmk := (conns_of std_dom dreg (cl_ports dcl)).
Definition daparse := istio_policy dcl ex_net (account_of dir_st) (val_ops std_dom) idfa dops dmk (hall Conn) dnss.
Definition dapols : list policy := flat_map (fun y => match daparse y with Some (Some p) => [p] | _ => [] end) dadocs.
Lemma da_parse : Forall2 (fun y p => daparse y = Some (Some p)) dadocs dapols.
Proof. unfold dapols. repeat constructor. Qed.
Lemma da_benign : forall y, In y dadocs -> benign_ap dcl (account_of dir_st) icode idfa y.
Proof.
  intros y [<-|[]]. apply ap_benign; [discriminate|right; left; reflexivity|]. intros m [E|[]]. injection E as <-. split; [|split].
  - intros l e s E He (d & -> & Es). injection E as <-. one_entry He. cbn in Es. injection Es as <-. apply source_ok; [|intros k l e [->| ->] E; discriminate|left; auto].
    intros k [<-|[<-|[<-|[<-|[<-|[<-|[]]]]]]]; discriminate.
  - intros l e o E. discriminate.
  - intros l c E. discriminate.
Qed.
(** They reach the services of their namespace and www.ibm.com, no address. *)
Definition dsdocs : list yaml := [sc "default" "prod" [hosts ["./*"; "*/www.ibm.com"]; ("outboundTrafficPolicy", YMap [("mode", YStr "REGISTRY_ONLY")])]].
Definition dspols : list policy := match sidecars_of dcl dsvcs dops dmk dsdocs with Some l => l | None => [] end.
Lemma ds_parse : sidecars_of dcl dsvcs dops dmk dsdocs = Some dspols.
Proof. vm_compute. reflexivity. Qed.
Lemma ds_benign : forall y, In y dsdocs -> benign_sc dcl dsvcs y.
Proof.
  intros y [<-|[]] n s sp l D El. destruct (one_sc "default" "prod" _ _ _ _ ltac:(discriminate) D) as (-> & -> & ->). injection El as <-. split; [discriminate|].
  intros e [<-|[]] a b H. apply (one_host ["./*"; "*/www.ibm.com"]) in H as [H|[H|[]]]; host H; [left; reflexivity|].
  right. right. right. split; [reflexivity|]. split.
  - intros s [<-|[]] _ [H|[H|(suf & p & H & _)]]; vm_compute in H; discriminate H.
  - intros d H _. left. rewrite dir_peers in H. cbn in H. intuition congruence.
Qed.
Definition dadded : list policy := dkpols ++ dapols.
Lemma dkeys : NoDup (map (fun p => (full_name p, p_kind p)) (dadded ++ dspols)).
Proof. vm_compute. repeat (constructor; [cbn; intuition discriminate|]). constructor. Qed.
Definition dwhole := all_allowed (config_conns dops (cl_peers dcl) (lays (add_all pcont_init (dadded ++ dspols))) only_all_allowed).
Example ex_C59 : exists sorted, Permutation dkdocs sorted /\
  (forall pt h w, a_space std_dom pt -> words_at icode pt h w -> PropIstioParser.endpoint dcl (a_src dreg pt) -> PropIstioParser.endpoint dcl (a_dst dreg pt) ->
   ~ (is_addr (a_src dreg pt) /\ is_addr (a_dst dreg pt)) ->
   (pt @ dwhole <-> doc_side dreg dcl ex_net (profiles_of dir_st) sorted true pt /\ doc_side dreg dcl ex_net (profiles_of dir_st) sorted false pt /\
                    istio_says dreg dcl dsvcs ex_net (account_of dir_st) dadocs dsdocs pt h w)).
Proof.
  assert (R0 : reg_ok []). { split; [constructor|]. split; [intros p []|vm_compute; discriminate]. }
  destruct (C59_from_documents dir dir_st (or_introl dir_loads) dir_ok [] dreg R0 dreg_is dsvcs dsvcs_is ex_net ex_net_ok eq_refl icode idfa icode_ok dnss (incl_refl _)
    dkdocs dkpols dk_parse dk_benign dadocs dapols da_parse da_benign dsdocs dspols ds_parse ds_benign dadded (Permutation_refl _) dkeys) as (sorted & P & _ & X).
  exists sorted. split; auto. refine (proj1 (X (or_introl _))). intros d [E|[]]. discriminate E.
Qed.
(** The pod job reaches port http of the web pods over TCP and www.ibm.com, not another port, no address; web pods do not reach each other. *)
Definition didx (n : Z) : Z := (min_pod_index + n)%Z.
Definition dopen (s d pr port : Z) : bool := PropQueryCases.inside (hconn s d pr port 0 1 1) dwhole.
Example ex_C59_where :
  dopen (didx 2) (didx 0) 6 8080 = true /\ dopen (didx 2) (didx 1) 6 8080 = true /\ dopen (didx 2) (didx 4) 6 443 = true /\
  dopen (didx 2) (didx 0) 6 8081 = false /\ dopen (didx 2) (10 * 2 ^ 24) 6 443 = false /\ dopen (didx 0) (didx 1) 6 8080 = false /\ dopen (10 * 2 ^ 24) (didx 0) 6 8080 = false.
Proof. repeat apply conj; vm_compute; reflexivity. Qed.
