(** * From decoded topology documents to the peers of a cluster: nca/NetworkConfig/TopologyObjectsFinder.py, the endpoints of
    nca/CoreDS/Peer.py, IstioServiceEntryYamlParser.py and the loop of ResourcesHandler.py:376-405.

    Every exception is [None].  Not modelled: NetworkSets (IpBlock peers with labels; such a document is an error here), warnings,
    the explanation tracker, live clusters. *)
From Coq Require Import ZArith List Bool Arith String Ascii.
From Verif Require Import IntervalModel TextModel PortProtoModel PeerModel PolicyModel YamlModel ClusterModel ServiceModel SidecarModel.
Import ListNotations.
Local Open Scope string_scope.
Local Open Scope list_scope.
Local Open Scope nat_scope.

(** d[k] = v for a dictionary in order of insertion. *)
Fixpoint dict_put {A} (k : string) (v : A) (d : list (string * A)) : list (string * A) :=
  match d with
  | [] => [(k, v)]
  | (k', v') :: t => if String.eqb k' k then (k, v) :: t else (k', v') :: dict_put k v t
  end.
(** dict.get(key, default). *)
Definition get_default (m : list (string * yaml)) (k : string) (d : yaml) : yaml := match assoc_s k m with Some v => v | None => d end.
Definition as_map (y : yaml) : option (list (string * yaml)) := match y with YMap m => Some m | _ => None end.
Definition as_str (y : yaml) : option string := match y with YStr s => Some s | _ => None end.
Definition as_list (y : yaml) : option (list yaml) := match y with YList l => Some l | _ => None end.
(** The map at a key, {} if the key is missing (a value that is not a dictionary has no .get). *)
Definition sub (m : list (string * yaml)) (k : string) : option (list (string * yaml)) := as_map (get_default m k (YMap [])).

(** ** Namespaces *)
(** K8sNamespace, K8sNamespace.py:7-34. *)
Record namespace := Namespace { n_name : string; n_labels : list (string * string) }.
Definition new_namespace (name : string) : namespace :=
  Namespace (if String.eqb name "" then "default" else name) [("kubernetes.io/metadata.name", name)].
(** The loop over labels.items() with set_label.  Simplification: a label whose value is not a text is an error. *)
Definition set_labels (l0 : list (string * string)) (m : list (string * yaml)) : option (list (string * string)) :=
  fold_left (fun acc kv => bind acc (fun l => bind (as_str (snd kv)) (fun v => Some (dict_put (fst kv) v l)))) m (Some l0).
(** _add_namespace, TopologyObjectsFinder.py:314-329; [generic]: the list has the kind List.  Simplification: names are texts. *)
Definition add_namespace (generic : bool) (nss : list (string * namespace)) (y : yaml) : option (list (string * namespace)) :=
  bind (as_map y) (fun m =>
  if generic && negb (match yget m "kind" with YStr s => String.eqb s "Namespace" | _ => false end) then Some nss
  else
    bind (sub m "metadata") (fun md =>
    bind (as_str (get_default md "name" (YStr ""))) (fun name =>
    bind (sub md "labels") (fun labels =>
    let ns := new_namespace name in
    bind (set_labels (n_labels ns) labels) (fun l => Some (dict_put name (Namespace (n_name ns) l) nss)))))).
(** parse_yaml_code_for_ns and set_namespaces, TopologyObjectsFinder.py:288-312.  Simplification: items are a list. *)
Definition namespace_doc (nss : list (string * namespace)) (y : yaml) : option (list (string * namespace)) :=
  match y with
  | YMap m =>
    match yget m "kind" with
    | YStr k =>
      if smem k ["NamespaceList"; "List"] then
        bind (as_list (get_default m "items" (YList []))) (fun l =>
        fold_left (fun acc y => bind acc (fun nss => add_namespace (String.eqb k "List") nss y)) l (Some nss))
      else if String.eqb k "Namespace" then add_namespace false nss y
      else Some nss
    | _ => Some nss
    end
  | _ => Some nss
  end.
(** get_or_update_namespace, TopologyObjectsFinder.py:331-342. *)
Definition get_namespace (nss : list (string * namespace)) (name : string) : list (string * namespace) * namespace :=
  match assoc_s name nss with
  | Some n => (nss, n)
  | None => (nss ++ [(name, new_namespace name)], new_namespace name)
  end.

(** ** Endpoints *)
(** Pod (kind 0), HostEP (1) and DNSEntry (2), Peer.py:13-191, 470-518.  The owner's kind is an argument of Pod() and used for
    workload_name only.  The namespace is the object the endpoint refers to: a Namespace
    document that comes later makes a new object and does not change it. *)
Record endpoint := Endpoint {
  e_kind : nat; e_name : string; e_ns : option namespace; e_owner : string; e_owner_kind : string; e_account : string;
  e_labels : list (string * string); e_ports : list (string * (Z * Z)); e_profiles : list string
}.
(** full_name, Peer.py:80-81, 150, 172-173; DNSEntry compares names. *)
Definition e_full (e : endpoint) : string := match e_ns e with Some n => (n_name n ++ "/" ++ e_name e)%string | None => e_name e end.
(** The peer: __eq__ compares the type and the full name (Peer.py:69-72, 494-497). *)
Definition peer_of (e : endpoint) : peer := Named (e_kind e) (e_full e).
(** The last position of "-" splits the text: [rsplit s] is (s[:s.rfind('-')], s[s.rfind('-')+1:]); without "-" rfind gives -1. *)
Fixpoint rdash (s : string) : option (string * string) :=
  match s with
  | EmptyString => None
  | String c t => match rdash t with
                  | Some (a, b) => Some (String c a, b)
                  | None => if Ascii.eqb c "-" then Some ("", t) else None
                  end
  end.
Definition rsplit (s : string) : string * string :=
  match rdash s with Some ab => ab | None => (substring 0 (String.length s - 1) s, s) end.
Definition hexdigit (c : ascii) : bool := in_range "0" "9" c || in_range "a" "f" c || in_range "A" "F" c.
(** workload_name, Peer.py:152-164; an owner_kind of None is printed as None. *)
Definition workload_name (ns name owner kind : string) : string :=
  if String.eqb owner "" then (ns ++ "/" ++ name ++ "(Pod)")%string
  else if String.eqb kind "ReplicaSet" then
    if forallb hexdigit (chars (snd (rsplit owner))) then (ns ++ "/" ++ fst (rsplit owner) ++ "(Deployment-StatefulSet)")%string
    else (ns ++ "/" ++ owner ++ "(ReplicaSet)")%string
  else (ns ++ "/" ++ owner ++ "(" ++ kind ++ ")")%string.
Definition e_workload (e : endpoint) : string :=
  workload_name (match e_ns e with Some n => n_name n | None => "" end) (e_name e) (e_owner e) (e_owner_kind e).
(** sorted. *)
Fixpoint insert (s : string) (l : list string) : list string :=
  match l with [] => [s] | x :: t => if String.leb s x then s :: l else x :: insert s t end.
Definition sort (l : list string) : list string := fold_right insert [] l.
Fixpoint insert_label (kv : string * string) (l : list (string * string)) : list (string * string) :=
  match l with [] => [kv] | x :: t => if String.leb (fst kv) (fst x) then kv :: l else x :: insert_label kv t end.
(** sorted(labels.items()): the keys are different, so the keys decide. *)
Definition sort_labels (l : list (string * string)) : list (string * string) := fold_right insert_label [] l.
Definition cat (l : list string) : string := fold_right (fun a b => (a ++ b)%string) "" l.
(** ClusterEP.canonical_form, Peer.py:113-132. *)
Definition ep_form (e : endpoint) : string :=
  (cat (map (fun p => "," ++ p) (match e_profiles e with [] => [] | p :: t => p :: sort t end)) ++
   cat (map (fun kv => ",(" ++ fst kv ++ "," ++ snd kv ++ ")") (sort_labels (e_labels e))))%string.
(** canonical_form of Pod (Peer.py:175-177), HostEP (inherited) and DNSEntry (Peer.py:499-503; no namespace is ever set). *)
Definition canonical_form (e : endpoint) : string :=
  match e_kind e, e_ns e with
  | 0, Some n => (n_name n ++ "_" ++ e_workload e ++ "_" ++ ep_form e)%string
  | 2, _ => e_name e
  | _, _ => ep_form e
  end.

(** ** PodsFinder *)
(** peer_set, representative_peers; [ts_services] are the services of ServicesFinder. *)
Record tstate := TState { ts_nss : list (string * namespace); ts_peers : list endpoint; ts_counts : list (string * nat); ts_services : list k8s_service }.
Definition tstate0 : tstate := TState [] [] [] [].
Definition count_of (d : list (string * nat)) (k : string) : nat := match assoc_s k d with Some n => n | None => 0 end.
(** _add_peer, TopologyObjectsFinder.py:118-131.  set.add keeps the old element if an equal one is there.  BasePeerSet.add_peer is
    [PeerModel.add_peer], see [register]. *)
Definition add_endpoint (st : tstate) (e : endpoint) : tstate :=
  let f := canonical_form e in
  let c := count_of (ts_counts st) f in
  if 2 <=? c then st
  else TState (ts_nss st) (if existsb (fun x => peer_eqb (peer_of x) (peer_of e)) (ts_peers st) then ts_peers st else ts_peers st ++ [e])
              (dict_put f (c + 1) (ts_counts st)) (ts_services st).
Definition with_nss (st : tstate) (nss : list (string * namespace)) : tstate := TState nss (ts_peers st) (ts_counts st) (ts_services st).
(** add_named_port, Peer.py:83-96, for the ports of a list; [number] is the key of the number.  Simplification: names are texts (or
    missing), numbers are integers and protocols are names of transport protocols. *)
Definition add_port (number : string) (ports : list (string * (Z * Z))) (y : yaml) : option (list (string * (Z * Z))) :=
  bind (as_map y) (fun m =>
  match yget m "name" with
  | YNull => Some ports
  | YStr "" => Some ports
  | YStr name =>
    bind (yint (yget m number)) (fun n => bind (as_str (get_default m "protocol" (YStr "TCP"))) (fun pr =>
    bind (get_protocol_number (ProtoName pr)) (fun pn => Some (dict_put name (n, pn) ports))))
  | _ => None
  end).
Definition add_ports (number : string) (ports : list (string * (Z * Z))) (y : yaml) : option (list (string * (Z * Z))) :=
  if ytrue y then bind (as_list y) (fun l => fold_left (fun acc p => bind acc (fun ps => add_port number ps p)) l (Some ports)) else Some ports.
(** The loop over containers, TopologyObjectsFinder.py:110-113, 167-170.  Simplification: containers are a list. *)
Definition container_ports (y : yaml) : option (list (string * (Z * Z))) :=
  bind (as_list y) (fun l => fold_left (fun acc c => bind acc (fun ps => bind (as_map c) (fun m => add_ports "containerPort" ps (yget m "ports")))) l (Some [])).
Definition creation_kinds : list string := ["Deployment"; "ReplicaSet"; "StatefulSet"; "DaemonSet"; "Job"; "CronJob"; "ReplicationController"].
(** metadata.get('namespace', 'default'). *)
Definition meta_ns (md : list (string * yaml)) : option string := as_str (get_default md "namespace" (YStr "default")).
(** _add_pod_from_yaml, TopologyObjectsFinder.py:78-114.  Simplification: an owner's kind that is not a text is an error. *)
Definition add_pod (st : tstate) (m : list (string * yaml)) : option tstate :=
  bind (sub m "metadata") (fun md =>
  bind (as_str (get_default md "name" (YStr ""))) (fun name =>
  bind (meta_ns md) (fun nsname =>
  let (nss, ns) := get_namespace (ts_nss st) nsname in
  let owners := get_default md "ownerReferences" (YList []) in
  bind (if ytrue owners
        then match owners with
             | YList (YMap o :: _) => bind (as_str (get_default o "name" (YStr ""))) (fun a => bind (as_str (get_default o "kind" (YStr ""))) (fun k => Some (a, k)))
             | _ => None
             end
        else Some ("", "")) (fun owner =>
  bind (as_map (yget m "spec")) (fun sp =>
  bind (match yget m "kind" with
        | YStr k => if String.eqb k "Pod" then as_str (get_default sp "serviceAccountName" (YStr "default"))
                    else if smem k creation_kinds
                         then bind (sub sp "template") (fun t => bind (sub t "spec") (fun ts => as_str (get_default ts "serviceAccountName" (YStr "default"))))
                         else Some ""
        | _ => Some ""
        end) (fun account =>
  bind (sub md "labels") (fun lm => bind (set_labels [] lm) (fun labels =>
  bind (container_ports (get_default sp "containers" (YList []))) (fun ports =>
  Some (add_endpoint (with_nss st nss)
    (Endpoint 0 name (Some ns) (fst owner) (snd owner) account labels ports []))))))))))).
(** The text of a replica number (1 or 2). *)
Definition replica_text (i : nat) : string := match i with 1 => "1" | _ => "2" end.
(** _add_pod_from_workload_yaml, TopologyObjectsFinder.py:133-171. *)
Definition add_workload (st : tstate) (m : list (string * yaml)) : option tstate :=
  let kind := match yget m "kind" with YStr k => k | _ => "None" end in
  bind (sub m "metadata") (fun md =>
  bind (as_str (get_default md "name" (YStr ""))) (fun name =>
  bind (meta_ns md) (fun nsname =>
  let (nss, ns) := get_namespace (ts_nss st) nsname in
  let st := with_nss st nss in
  bind (sub m "spec") (fun sp0 =>
  bind (yint (get_default sp0 (if String.eqb kind "Job" then "parallelism" else "replicas") (YInt 1))) (fun replicas =>
  if String.eqb kind "Job" && Z.eqb replicas 0 then Some st
  else
  bind (if String.eqb kind "CronJob" then bind (sub sp0 "jobTemplate") (fun j => sub j "spec") else Some sp0) (fun sp =>
  bind (sub sp "template") (fun t =>
  bind (sub t "spec") (fun ts =>
  bind (as_str (get_default ts "serviceAccountName" (YStr "default"))) (fun account =>
  fold_left (fun acc i => bind acc (fun st =>
    bind (sub t "metadata") (fun tm => bind (sub tm "labels") (fun lm => bind (set_labels [] lm) (fun labels =>
    bind (container_ports (get_default ts "containers" (YList []))) (fun ports =>
    Some (add_endpoint st
      (Endpoint 0 (name ++ "-" ++ replica_text i)%string (Some ns) name kind account labels ports []))))))))
    (seq 1 (Z.to_nat (Z.min replicas 2))) (Some st)))))))))).
(** The profiles; simplification: a list of texts. *)
Definition profile_list (y : yaml) : option (list string) := if ytrue y then bind (as_list y) strs else Some [].
(** _add_hep_from_yaml, TopologyObjectsFinder.py:211-232. *)
Definition add_hep (st : tstate) (m : list (string * yaml)) : option tstate :=
  bind (sub m "metadata") (fun md => bind (sub m "spec") (fun sp =>
  bind (as_str (get_default md "name" (YStr ""))) (fun name =>
  bind (sub md "labels") (fun lm => bind (set_labels [] lm) (fun labels =>
  bind (add_ports "port" [] (yget sp "ports")) (fun ports =>
  bind (profile_list (yget sp "profiles")) (fun profiles =>
  Some (add_endpoint st (Endpoint 1 name None "" "" "" labels ports profiles))))))))).
(** _add_wep_from_yaml, TopologyObjectsFinder.py:236-260. *)
Definition add_wep (st : tstate) (m : list (string * yaml)) : option tstate :=
  bind (sub m "metadata") (fun md => bind (sub m "spec") (fun sp =>
  bind (meta_ns md) (fun nsname =>
  let (nss, ns) := get_namespace (ts_nss st) nsname in
  bind (as_str (get_default sp "pod" (YStr ""))) (fun name =>
  bind (sub md "labels") (fun lm => bind (set_labels [] lm) (fun labels =>
  bind (add_ports "port" [] (yget sp "ports")) (fun ports =>
  bind (profile_list (yget sp "profiles")) (fun profiles =>
  Some (add_endpoint (with_nss st nss) (Endpoint 0 name (Some ns) "" "None" "" labels ports profiles)))))))))).
(** _legal_host_name and the check of IstioServiceEntryYamlParser.py:19-29, 54-55. *)
Definition entry_host_ok (h : string) : bool :=
  negb (String.eqb h "*") &&
  dns_pattern (match h with String c1 (String c2 rest) => if Ascii.eqb c1 "*" && Ascii.eqb c2 "." then rest else h | _ => h end).
(** parse_serviceentry, IstioServiceEntryYamlParser.py:60-104: the hosts.  [None] also if it is not a ServiceEntry (the caller then
    iterates over None).  The DNSEntry peers are kept in a set: equal names once. *)
Definition service_entry (m : list (string * yaml)) : option (list string) :=
  bind (parse_generic (YMap m) ["ServiceEntry"] ["networking.istio.io/v1beta1"; "networking.istio.io/v1alpha3"] ["istio"] false false true) (fun o =>
  bind o (fun _ =>
  bind (check_fields (yget m "spec")
     [Field "hosts" Mandatory (Some TyList) None; Field "addresses" Ignored (Some TyList) None; Field "ports" Ignored (Some TyList) None;
      Field "location" Optional (Some TyStr) (Some (among ["MESH_EXTERNAL"; "MESH_INTERNAL"]));
      Field "resolution" Optional (Some TyStr) (Some (among ["NONE"; "STATIC"; "DNS"; "DNS_ROUND_ROBIN"]));
      Field "endpoints" Unsupported (Some TyList) None; Field "workloadSelector" Unsupported (Some TyDict) None;
      Field "exportTo" Ignored (Some TyList) None; Field "subjectAltNames" Ignored (Some TyList) None]) (fun sp =>
  match yget sp "hosts" with
  | YList (h :: t) => bind (strs (h :: t)) (fun hosts => if forallb entry_host_ok hosts then Some (nodup string_dec hosts) else None)
  | _ => None
  end))).
(** _add_dns_entries_from_yaml, TopologyObjectsFinder.py:264-273.  The order of a set is not specified, here it is the order of the hosts;
    an entry that exists already is added again, with the same effect. *)
Definition add_entries (st : tstate) (m : list (string * yaml)) : option tstate :=
  bind (service_entry m) (fun hosts => Some (fold_left (fun st h => add_endpoint st (Endpoint 2 h None "" "" "" [] [] [])) hosts st)).

(** ** The documents *)
(** One object of a kind, TopologyObjectsFinder.py:65-76. *)
Definition add_object (st : tstate) (ko : string * list (string * yaml)) : option tstate :=
  let (k, m) := ko in
  if String.eqb k "Pod" then add_pod st m
  else if smem k creation_kinds then add_workload st m
  else if String.eqb k "WorkloadEndpoint" then add_wep st m
  else if String.eqb k "HostEndpoint" then add_hep st m
  else if smem k ["NetworkSet"; "GlobalNetworkSet"] then None
  else if String.eqb k "ServiceEntry" then add_entries st m
  else Some st.
Definition list_kinds : list string := ["List"; "PodList"; "WorkloadEndpointList"; "HostEndpointList"; "NetworkSetList"; "GlobalNetworkSetList"].
(** kind[:-4]. *)
Definition item_kind (k : string) : string := substring 0 (String.length k - 4) k.
(** The lists of add_eps_from_yaml, TopologyObjectsFinder.py:47-64: the objects with their kinds, in order; [override] = "" means none.
    Simplification: items are a list. *)
Fixpoint objects (override : string) (y : yaml) {struct y} : option (list (string * list (string * yaml))) :=
  match y with
  | YList l =>
    (fix all (l : list yaml) : option (list (string * list (string * yaml))) :=
       match l with [] => Some [] | x :: t => bind (objects "" x) (fun a => bind (all t) (fun b => Some (a ++ b))) end) l
  | YMap m =>
    let kind := if String.eqb override "" then match yget m "kind" with YStr k => k | _ => "" end else override in
    if smem kind list_kinds then
      (fix find (r : list (string * yaml)) : option (list (string * list (string * yaml))) :=
         match r with
         | [] => Some []
         | (key, v) :: t =>
           if String.eqb key "items" then
             match v with
             | YList l =>
               (fix all (l : list yaml) : option (list (string * list (string * yaml))) :=
                  match l with [] => Some [] | x :: t => bind (objects (item_kind kind) x) (fun a => bind (all t) (fun b => Some (a ++ b))) end) l
             | _ => None
             end
           else find t
         end) m
    else Some [(kind, m)]
  | _ => Some []
  end.
(** add_eps_from_yaml. *)
Definition endpoints_doc (st : tstate) (y : yaml) : option tstate :=
  bind (objects "" y) (fun os => fold_left (fun acc o => bind acc (fun st => add_object st o)) os (Some st)).
(** _parse_and_update_services_list, TopologyObjectsFinder.py:382-391; parse_service gives the name of the namespace. *)
Definition add_service (st : tstate) (y : yaml) : option tstate :=
  bind (parse_service y) (fun o =>
  match o with
  | None => Some st
  | Some s => Some (TState (fst (get_namespace (ts_nss st) (ks_ns s))) (ts_peers st) (ts_counts st) (ts_services st ++ [s]))
  end).
(** parse_yaml_code_for_service, TopologyObjectsFinder.py:369-380. *)
Definition services_doc (st : tstate) (y : yaml) : option tstate :=
  match y with
  | YMap m =>
    let is_service y := match y with YMap m => match yget m "kind" with YStr k => String.eqb k "Service" | _ => false end | _ => false end in
    match yget m "kind" with
    | YStr k =>
      if String.eqb k "List" then
        bind (as_list (get_default m "items" (YList []))) (fun l =>
        fold_left (fun acc y => bind acc (fun st => if is_service y then add_service st y else Some st)) l (Some st))
      else if String.eqb k "Service" then add_service st y
      else Some st
    | _ => Some st
    end
  | _ => Some st
  end.
(** One document, ResourcesHandler.py:396-403; the flags: look for namespaces, look for pods. *)
Definition topology_doc (namespaces pods : bool) (st : tstate) (y : yaml) : option tstate :=
  bind (if namespaces then bind (namespace_doc (ts_nss st) y) (fun nss => Some (with_nss st nss)) else Some st) (fun st =>
  if pods then bind (endpoints_doc st y) (fun st => services_doc st y) else Some st).
Definition load (namespaces pods : bool) (st : tstate) (docs : list yaml) : option tstate :=
  fold_left (fun acc y => bind acc (fun st => topology_doc namespaces pods st y)) docs (Some st).
(** parse_lists_for_topology, ResourcesHandler.py:283-292: one list of resources, or a list of namespaces and a list of pods. *)
Definition load_resources (docs : list yaml) : option tstate := load true true tstate0 docs.
Definition load_lists (nsdocs poddocs : list yaml) : option tstate := bind (load true false tstate0 nsdocs) (fun st => load false true st poddocs).

(** ** The PeerContainer *)
Definition find_ep (l : list endpoint) (p : peer) : option endpoint := find (fun e => peer_eqb (peer_of e) p) l.
Definition of_ep {A} (l : list endpoint) (d : A) (f : endpoint -> A) (p : peer) : A := match find_ep l p with Some e => f e | None => d end.
(** The labels that the pods of a namespace see: those of the namespace object of the first one.  (A [cluster] has one set of labels per
    namespace; C58_namespace_labels in PropTopology.v says when this is what every pod sees.) *)
Definition seen_labels (l : list endpoint) (n : string) : list (string * string) :=
  match find (fun e => match e_ns e with Some x => String.eqb (n_name x) n | None => false end) l with
  | Some e => match e_ns e with Some x => n_labels x | None => [] end
  | None => []
  end.
(** The peers of a PeerContainer with their attributes; extra_labels come from Calico profiles later. *)
Definition cluster_of (st : tstate) : cluster :=
  let l := ts_peers st in
  Cluster (map peer_of l) (of_ep l [] e_labels) (fun _ => []) (of_ep l None (fun e => option_map n_name (e_ns e))) (seen_labels l) (of_ep l [] e_ports).
Definition account_of (st : tstate) : peer -> string := of_ep (ts_peers st) "" e_account.
Definition profiles_of (st : tstate) : peer -> list string := of_ep (ts_peers st) [] e_profiles.
(** PeerContainer.__init__, PeerContainer.py:19-32: the services with their target pods. *)
Definition services_of (st : tstate) : option (list service) := set_services (cluster_of st) (ts_services st).
