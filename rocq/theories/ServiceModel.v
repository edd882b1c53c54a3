(** * Kubernetes Services: nca/Parsers/K8sServiceYamlParser.py, K8sService.py and their target pods in PeerContainer.py.

    Not modelled: the type of a service (ClusterIP, ...; no use for target pods), warnings. *)
From Coq Require Import ZArith List Bool Arith String Ascii.
From Verif Require Import IntervalModel TextModel PortProtoModel PeerModel PolicyModel YamlModel ClusterModel.
Import ListNotations.
Local Open Scope string_scope.
Local Open Scope list_scope.
Local Open Scope nat_scope.

(** K8sService, K8sService.py:12-47: name, namespace, selector, ports (name -> protocol, target port and number).  A port without a name (a key that is missing) has the name ''; a name that is null is [None]. *)
Record sport := SPort { sp_name : option string; sp_protocol : yaml; sp_target : yaml; sp_number : yaml }.
Record k8s_service := K8sService { ks_name : string; ks_ns : string; ks_selector : list (string * yaml); ks_ports : list sport }.
(** A service with its target_pods. *)
Record service := Service { sv_name : string; sv_ns : string; sv_pods : peerset }.

Definition ostr_eqb (a b : option string) : bool :=
  match a, b with Some x, Some y => String.eqb x y | None, None => true | _, _ => false end.
(** The loop over the ports, K8sServiceYamlParser.py:51-67, with add_port, K8sService.py:98-107: a second port of the same name is ignored. *)
Definition parse_sport (ps : list sport) (y : yaml) : option (list sport) :=
  bind (check_fields y [Field "port" Optional (Some TyInt) None; Field "name" Optional (Some TyStr) None; Field "targetPort" Optional None None;
                        Field "protocol" Optional (Some TyStr) (Some (among ["TCP"; "SCTP"; "UDP"; "HTTP"; "HTTPS"; "TLS"]));
                        Field "containerPort" Ignored None None; Field "nodePort" Ignored None None; Field "appProtocol" Ignored None None]) (fun m =>
  if negb (ytrue (yget m "port")) then Some ps
  else
    let name := match assoc_s "name" m with Some (YStr s) => Some s | Some _ => None | None => Some "" end in
    if existsb (fun p => ostr_eqb (sp_name p) name) ps then Some ps
    else Some (ps ++ [SPort name (match assoc_s "protocol" m with Some v => v | None => YStr "TCP" end)
                                 (match assoc_s "targetPort" m with Some v => v | None => yget m "port" end) (yget m "port")])).
(** parse_service, K8sServiceYamlParser.py:23-69.  [Some None]: not a service, or one without a spec.  The namespace is the one of
    ServicesFinder._parse_and_update_services_list, TopologyObjectsFinder.py:382-391.  Simplification: a namespace that is null or
    empty, and a spec whose ports are not a list, are rejected. *)
Definition parse_service (y : yaml) : option (option k8s_service) :=
  bind (parse_generic y ["Service"] ["v1"] ["v1"; "k8s"] true false false) (fun o =>
  match o with
  | None => Some None
  | Some (m, name, YStr ns) =>
    if String.eqb ns "" then None else
    match yget m "spec" with
    | YMap (kv :: t) =>
      let sp := kv :: t in
      bind (match yget sp "selector" with YMap s => Some s | v => if ytrue v then None else Some [] end) (fun sel =>
      bind (match yget sp "ports" with
            | YNull => Some []
            | YList l => fold_left (fun acc p => bind acc (fun ps => parse_sport ps p)) l (Some [])
            | _ => None
            end) (fun ports => Some (Some (K8sService name ns sel ports))))
    | _ => Some None
    end
  | Some _ => None
  end).

Section Targets.
Context (cl : cluster).
(** Whether the pod has the named target port with the protocol of the service port, PeerContainer.py:366-382.  Simplification: the
    protocol of a named port is a number here; a service protocol that is not the name of a transport protocol is equal to none. *)
Definition has_target_port (q : peer) (p : sport) : bool :=
  match sp_target p with
  | YStr t => match assoc_s t (cl_ports cl q) with
              | Some (_, pr) => match sp_protocol p with
                                | YStr s => match get_protocol_number (ProtoName s) with Some n => Z.eqb n pr | None => false end
                                | _ => false
                                end
              | None => false
              end
  | _ => true
  end.
(** _set_services_and_populate_target_pods for one service, PeerContainer.py:351-385. *)
Definition target_pods (s : k8s_service) : option peerset :=
  bind (fold_left (fun acc kv => bind acc (fun r =>
          ps_inter r (match snd kv with YStr v => peers_with_label cl (fst kv) [v] FIn (Some (ks_ns s)) | _ => [] end)))
          (ks_selector s) (Some (match ks_selector s with [] => [] | _ => cl_peers cl end))) (fun r =>
  fold_left (fun acc p => bind acc (fun r => ps_diff r (filter (fun q => negb (has_target_port q p)) r))) (ks_ports s) (Some r)).
(** The dictionary [services], key: namespace and name (K8sService.py:57-62); a later service takes the place of an earlier one. *)
Definition same_service (a b : service) : bool := String.eqb (sv_ns a) (sv_ns b) && String.eqb (sv_name a) (sv_name b).
Fixpoint put_service (s : service) (l : list service) : list service :=
  match l with
  | [] => [s]
  | x :: t => if same_service s x then s :: t else x :: put_service s t
  end.
Definition set_services (l : list k8s_service) : option (list service) :=
  fold_left (fun acc s => bind acc (fun r => bind (target_pods s) (fun t => Some (put_service (Service (ks_name s) (ks_ns s) t) r)))) l (Some []).
End Targets.
