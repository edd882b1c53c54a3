(** * C43, C58, C59: concrete documents, and documents that are misread. *)
From Coq Require Import ZArith List Bool Arith Lia String Ascii Permutation.
From Verif Require Import IntervalModel TextModel TextFacts PortProtoModel PeerModel PeerSetFacts PolicyModel PolicyLaws YamlModel ClusterModel ServiceModel SidecarModel SelectorFacts
                          PropSelectors CalicoSelectorSets IstioParserFacts TopologyModel TopologyFacts TopologyDocs TopologyLoad PropTopology.
Import ListNotations.
Local Open Scope string_scope.
Local Open Scope list_scope.
Local Open Scope nat_scope.

Definition labels_y (l : list (string * string)) : yaml := YMap (map (fun kv => (fst kv, YStr (snd kv))) l).
Definition ns_y (name : string) (labels : list (string * string)) : yaml := YMap [("kind", YStr "Namespace"); ("metadata", YMap [("name", YStr name); ("labels", labels_y labels)])].
Definition ports_y (ports : list (string * Z)) : yaml := YList (map (fun p => YMap [("name", YStr (fst p)); ("containerPort", YInt (snd p))]) ports).
Definition pod_y (ns name : string) (owner : option (string * string)) (account : string) (labels : list (string * string)) (ports : list (string * Z)) : yaml :=
  YMap [("kind", YStr "Pod");
        ("metadata", YMap ([("name", YStr name); ("namespace", YStr ns); ("labels", labels_y labels)] ++
           match owner with Some (o, k) => [("ownerReferences", YList [YMap [("kind", YStr k); ("name", YStr o)]])] | None => [] end));
        ("spec", YMap [("serviceAccountName", YStr account); ("containers", YList [YMap [("ports", ports_y ports)]])])].
Definition deploy_y (ns name : string) (replicas : Z) (labels : list (string * string)) (ports : list (string * Z)) : yaml :=
  YMap [("kind", YStr "Deployment"); ("metadata", YMap [("name", YStr name); ("namespace", YStr ns)]);
        ("spec", YMap [("replicas", YInt replicas); ("template", YMap [("metadata", YMap [("labels", labels_y labels)]);
           ("spec", YMap [("containers", YList [YMap [("ports", ports_y ports)]])])])])].
Definition hep_y (name : string) (labels : list (string * string)) : yaml := YMap [("kind", YStr "HostEndpoint"); ("metadata", YMap [("name", YStr name); ("labels", labels_y labels)]); ("spec", YMap [])].
Definition service_y (ns name : string) (sel : list (string * string)) : yaml :=
  YMap [("apiVersion", YStr "v1"); ("kind", YStr "Service"); ("metadata", YMap [("name", YStr name); ("namespace", YStr ns)]);
        ("spec", YMap [("selector", labels_y sel); ("ports", YList [YMap [("name", YStr "http"); ("port", YInt 80)]])])].
Definition entry_y (host : string) : yaml :=
  YMap [("apiVersion", YStr "networking.istio.io/v1beta1"); ("kind", YStr "ServiceEntry"); ("metadata", YMap [("name", YStr "ext")]);
        ("spec", YMap [("hosts", YList [YStr host])])].

(** A directory: a namespace, a deployment of three pods, a pod without an owner, a host, an external name and a service. *)
Definition dir : list yaml :=
  [ns_y "prod" [("env", "prod")]; deploy_y "prod" "web" 3 [("app", "web")] [("http", 8080%Z)]; pod_y "prod" "job" None "robot" [("app", "job")] [];
   YMap [("kind", YStr "List"); ("items", YList [hep_y "host1" [("role", "db")]; entry_y "www.ibm.com"])]; service_y "prod" "front" [("app", "web")]].
Definition dir_st : tstate := match load_resources dir with Some st => st | None => tstate0 end.
Lemma dir_loads : load_resources dir = Some dir_st.
Proof. vm_compute. reflexivity. Qed.
Example dir_peers : cl_peers (cluster_of dir_st) = [Named 0 "prod/web-1"; Named 0 "prod/web-2"; Named 0 "prod/job"; Named 1 "host1"; Named 2 "www.ibm.com"].
Proof. vm_compute. reflexivity. Qed.
Example dir_attributes :
  cl_labels (cluster_of dir_st) (Named 0 "prod/web-2") = [("app", "web")] /\ cl_ports (cluster_of dir_st) (Named 0 "prod/web-2") = [("http", (8080, 6)%Z)] /\
  cl_ns (cluster_of dir_st) (Named 0 "prod/web-2") = Some "prod" /\ cl_nslabels (cluster_of dir_st) "prod" = [("kubernetes.io/metadata.name", "prod"); ("env", "prod")] /\
  account_of dir_st (Named 0 "prod/job") = "robot" /\ option_map (map sv_pods) (services_of dir_st) = Some [[Named 0 "prod/web-1"; Named 0 "prod/web-2"]].
Proof. repeat apply conj; vm_compute; reflexivity. Qed.
Definition well_namedb (e : endpoint) : bool :=
  match e_ns e with Some n => negb (has_char "_" (n_name n)) && negb (has_char "_" (e_workload e)) && negb (has_char "," (n_name n)) | None => true end &&
  forallb (fun p => negb (has_char "," p) && negb (prefix "(" p)) (e_profiles e) &&
  forallb (fun kv => negb (has_char "," (fst kv)) && negb (has_char "," (snd kv))) (e_labels e) &&
  (negb (e_kind e =? 2) || (negb (String.eqb (e_name e) "") && negb (has_char "_" (e_name e)) && negb (has_char "," (e_name e)))).
Lemma well_namedb_ok : forall e, well_namedb e = true -> well_named e.
Proof.
  unfold well_namedb, well_named, names_ok, plain_text. intros e H. apply andb_true_iff in H as [H H4]. apply andb_true_iff in H as [H H3]. apply andb_true_iff in H as [H1 H2]. rewrite forallb_forall in H2, H3. split; [split; [|split]|split].
  - intros n E. rewrite E in H1. rewrite !andb_true_iff, !negb_true_iff in H1. tauto.
  - intros p Hp. specialize (H2 p Hp). rewrite andb_true_iff, !negb_true_iff in H2. tauto.
  - intros k v Hk. specialize (H3 _ Hk). cbn in H3. rewrite andb_true_iff, !negb_true_iff in H3. tauto.
  - intros n E. rewrite E in H1. rewrite !andb_true_iff, !negb_true_iff in H1. tauto.
  - intros K. rewrite K in H4. cbn in H4. rewrite !andb_true_iff, !negb_true_iff in H4. destruct H4 as [[X Y] Z]. apply String.eqb_neq in X. auto.
Qed.
Lemma all_well_named : forall l, forallb well_namedb l = true -> Forall well_named l.
Proof. intros l H. rewrite Forall_forall. intros e He. apply well_namedb_ok. rewrite forallb_forall in H. auto. Qed.
Example dir_well_named : Forall well_named (ts_peers dir_st).
Proof. apply all_well_named. vm_compute. reflexivity. Qed.
(** The endpoints in their order, with a third replica that is dropped. *)
Definition web (i : string) : endpoint := Endpoint 0 ("web-" ++ i) (Some (Namespace "prod" [])) "web" "Deployment" "default" [("app", "web")] [] [].
Definition solo : endpoint := Endpoint 0 "solo" (Some (Namespace "prod" [])) "" "" "default" [("app", "web")] [] [].
Definition hist : list endpoint := [web "1"; web "2"; solo; web "3"].
Definition hist_st : tstate := fold_left add_endpoint hist tstate0.
Lemma registered_fold : forall l, registered (ts_peers (fold_left add_endpoint l tstate0)) (ts_counts (fold_left add_endpoint l tstate0)) l.
Proof. induction l as [|e l IH] using rev_ind; [apply registered_nil|]. rewrite fold_left_app. cbn [fold_left]. apply registered_step. auto. Qed.
Lemma hist_wf : Forall wf_ep hist.
Proof. repeat constructor; cbn; try (intros [?|[]]; discriminate); try (intros []); auto; try discriminate. Qed.
Example hist_kept : first_two_kept (ts_peers hist_st) hist /\ map e_name (ts_peers hist_st) = ["web-1"; "web-2"; "solo"] /\ NoDup (map peer_of hist) /\ incl (ts_peers hist_st) hist.
Proof.
  split; [apply (kept_of _ _ _ (registered_fold hist)); [exact hist_wf|apply all_well_named; vm_compute; reflexivity]|]. split; [vm_compute; reflexivity|]. split.
  - repeat constructor; cbn; intuition discriminate.
  - intros e He. destruct (rg_source _ _ _ (registered_fold hist) e He) as (l1 & l2 & E & _). rewrite E. apply in_or_app. right. left. auto.
Qed.
Example hist_owner : forall x, In x hist -> e_owner x <> "" -> e_owner_kind x <> "Pod" /\ has_char "(" (e_owner_kind x) = false.
Proof. intros x [<-|[<-|[<-|[<-|[]]]]] H; split; try reflexivity; try discriminate; destruct H; reflexivity. Qed.
Lemma listing_fun_map : forall m os k, listing "" (YMap m) os -> yget m "kind" = YStr k -> ~ In k list_kinds -> os = [(k, m)].
Proof.
  intros m os k H E N. inversion H as [|ov m' k' l oss K I|ov m' k' K I|ov m' k' K I|ov y N1 N2]; subst.
  - destruct K as [K|[K _]]; [|destruct (K k E)]. rewrite E in K. injection K as <-. contradiction.
  - destruct K as [K|[K _]]; [|destruct (K k E)]. rewrite E in K. injection K as <-. contradiction.
  - destruct K as [K|[K _]]; [|destruct (K k E)]. rewrite E in K. injection K as <-. auto.
  - destruct (N2 m). auto.
Qed.
Example dir_order : namespaces_first dir.
Proof.
  intros pre x mid y post E. left. unfold dir in E. destruct pre as [|a pre]; [injection E as <- E|injection E as _ E].
  all: assert (Z : forall z, In z (tl dir) -> namespaces_in z = []) by (intros z [<-|[<-|[<-|[<-|[]]]]]; reflexivity).
  - apply Z. unfold dir. cbn [tl]. rewrite E. apply in_or_app. right. left. auto.
  - apply Z. unfold dir. cbn [tl]. rewrite E. apply in_or_app. right. right. apply in_or_app. right. left. auto.
Qed.

(** ** What is lost *)
(** C43 speaks of equal labels and ports; the encoding has neither ports nor service accounts: a third pod of an owner is dropped also if it is the
    only one with a named port, or the only one with its service account. *)
Definition lost_by (P : endpoint -> endpoint -> Prop) : Prop :=
  exists docs y st1 st2 e, load_resources [y] = Some st1 /\ ts_peers st1 = [e] /\ load_resources (docs ++ [y]) = Some st2 /\
    ~ In (peer_of e) (cl_peers (cluster_of st2)) /\ forall x, In x (ts_peers st2) -> P e x.
Definition replica (i : string) (account : string) (ports : list (string * Z)) : yaml := pod_y "prod" ("web-" ++ i) (Some ("web", "StatefulSet")) account [("app", "web")] ports.
Theorem C43_equal_ports_refuted : lost_by (fun e x => e_ports e <> e_ports x).
Proof.
  exists [replica "1" "default" []; replica "2" "default" []], (replica "3" "default" [("http", 8080%Z)]). do 3 eexists. split; [vm_compute; reflexivity|]. split; [reflexivity|]. split; [vm_compute; reflexivity|]. split.
  - vm_compute. intuition discriminate.
  - intros x [<-|[<-|[]]]; vm_compute; discriminate.
Qed.
Theorem C43_equal_accounts_refuted : lost_by (fun e x => e_account e <> e_account x).
Proof.
  exists [replica "1" "default" []; replica "2" "default" []], (replica "3" "admin" []). do 3 eexists. split; [vm_compute; reflexivity|]. split; [reflexivity|]. split; [vm_compute; reflexivity|]. split.
  - vm_compute. intuition discriminate.
  - intros x [<-|[<-|[]]]; vm_compute; discriminate.
Qed.
(** The name of a ReplicaSet that consists of hexadecimal digits loses its last character, so pods of different owners are counted together. *)
Theorem C43_same_owner_refuted : lost_by (fun e x => e_owner e <> e_owner x).
Proof.
  exists [pod_y "prod" "x1" (Some ("abc", "ReplicaSet")) "default" [] []; pod_y "prod" "x2" (Some ("abc", "ReplicaSet")) "default" [] []], (pod_y "prod" "y1" (Some ("abd", "ReplicaSet")) "default" [] []).
  do 3 eexists. split; [vm_compute; reflexivity|]. split; [reflexivity|]. split; [vm_compute; reflexivity|]. split.
  - vm_compute. intuition discriminate.
  - intros x [<-|[<-|[]]]; vm_compute; discriminate.
Qed.
(** Host endpoints have no owner; the third with the same labels is dropped. *)
Theorem C43_hosts_always_registered_refuted : lost_by (fun e x => e_kind e = 1 /\ e_name e <> e_name x).
Proof.
  exists [hep_y "host1" [("role", "db")]; hep_y "host2" [("role", "db")]], (hep_y "host3" [("role", "db")]). do 3 eexists. split; [vm_compute; reflexivity|]. split; [reflexivity|]. split; [vm_compute; reflexivity|]. split.
  - vm_compute. intuition discriminate.
  - intros x [<-|[<-|[]]]; vm_compute; split; auto; discriminate.
Qed.
(** Additions are counted, not pods: a pod listed twice takes both places, so that the second replica of its owner is dropped. *)
Theorem C43_two_different_replicas_refuted : exists docs y st1 st2 e, load_resources [y] = Some st1 /\ ts_peers st1 = [e] /\ load_resources (docs ++ [y]) = Some st2 /\
  ~ In (peer_of e) (cl_peers (cluster_of st2)) /\ List.length (ts_peers st2) = 1.
Proof.
  exists [replica "1" "default" []; replica "1" "default" []], (replica "2" "default" []). do 3 eexists. split; [vm_compute; reflexivity|]. split; [reflexivity|]. split; [vm_compute; reflexivity|]. split.
  - vm_compute. intuition discriminate.
  - vm_compute. reflexivity.
Qed.
(** A Namespace document that comes after a pod: the pod's namespace has no labels although the documents give it one. *)
Theorem C58_namespace_labels_refuted : exists docs st e t n, load_resources docs = Some st /\ In e (ts_peers st) /\ cl_ns (cluster_of st) (peer_of e) = Some t /\
  ns_of (flat_map namespaces_in docs) t n /\ assoc_s "env" (n_labels n) = Some "prod" /\ assoc_s "env" (cl_nslabels (cluster_of st) t) = None.
Proof.
  exists [pod_y "prod" "a" None "default" [] []; ns_y "prod" [("env", "prod")]]. do 2 eexists. exists "prod", (Namespace "prod" [("kubernetes.io/metadata.name", "prod"); ("env", "prod")]).
  split; [vm_compute; reflexivity|]. split; [left; reflexivity|]. split; [vm_compute; reflexivity|]. split; [|split; [reflexivity|vm_compute; reflexivity]].
  left. exists [], (ns_y "prod" [("env", "prod")]), []. split; [reflexivity|]. split; [|intros z []].
  do 3 eexists. split; [reflexivity|]. split; [left; reflexivity|]. split; [left; reflexivity|]. split; [left; reflexivity|]. split; [reflexivity|]. cbn [n_labels]. intros k v. split.
  - cbn [assoc_s]. destruct (String.eqb_spec k "kubernetes.io/metadata.name") as [->|N1]; [intros [= <-]; right; split; [intros [F|[]]; discriminate F|auto]|].
    destruct (String.eqb_spec k "env") as [->|N2]; [intros [= <-]; left|discriminate]. exists [], []. split; [reflexivity|intros []].
  - intros [(p & q & E & _)|(_ & -> & ->)]; [|reflexivity]. destruct p as [|a p]; cbn in E; [injection E as <- <- _; reflexivity|]. injection E as _ E. destruct p; discriminate.
Qed.
Print Assumptions C43_first_two_kept.
Print Assumptions C43_first_two_kept_lists.
Print Assumptions C43_at_most_two.
Print Assumptions C43_dropped_have_two_replicas.
Print Assumptions C43_without_owner.
Print Assumptions C58_namespace_of_a_pod.
Print Assumptions C58_namespace_of_a_pod_lists.
Print Assumptions C58_all_namespaces_seen.
Print Assumptions C58_attributes.
Print Assumptions C58_cluster_usable.
Print Assumptions C58_namespace_labels.
Print Assumptions C58_namespace_labels_lists.
Print Assumptions C58_port_numbers.
Print Assumptions C43_equal_ports_refuted.
Print Assumptions C43_equal_accounts_refuted.
Print Assumptions C43_same_owner_refuted.
Print Assumptions C43_hosts_always_registered_refuted.
Print Assumptions C43_two_different_replicas_refuted.
Print Assumptions C58_namespace_labels_refuted.
