(** * Model of nca/Parsers/IngressPolicyYamlParser.py and GenericGatewayYamlParser.py: from a decoded Ingress document to a policy.

    Not modelled: warnings, findings, missing_k8s_ingress_peers. *)
From Coq Require Import ZArith List Bool Arith String Ascii.
From Verif Require Import IntervalModel TextModel PortProtoModel PeerModel HyperModel HyperInst ConnModel PolicyModel ConnAlg StdDims YamlModel ClusterModel
                          K8sParserModel CalicoSelectorModel CalicoParserModel ConnDict IstioValueModel IstioParserModel ServiceModel.
Import ListNotations.
Local Open Scope string_scope.
Local Open Scope list_scope.
Local Open Scope nat_scope.

(** ** Regular expressions of these parsers
    A sequence of atoms, each followed at most by one of '*', '+' and '?'; an atom is a character, a dot (any character), a class "[...]"
    or a sequence in round brackets. *)
Inductive rx := RxEmpty | RxAny | RxClass (s : list item) | RxStar (r : rx) | RxPlus (r : rx) | RxOpt (r : rx) | RxSeq (a b : rx).
Definition postfix (r : rx) (l : list ascii) : rx * list ascii :=
  match l with
  | c :: t => if Ascii.eqb c "*" then (RxStar r, t) else if Ascii.eqb c "+" then (RxPlus r, t) else if Ascii.eqb c "?" then (RxOpt r, t) else (r, l)
  | [] => (r, l)
  end.
(** A sequence up to the end of the text or a closing bracket. *)
Fixpoint read_seq (fuel : nat) (l : list ascii) : option (rx * list ascii) :=
  match fuel with
  | 0 => None
  | S f =>
    match l with
    | [] => Some (RxEmpty, [])
    | c :: t =>
      if Ascii.eqb c ")" then Some (RxEmpty, l)
      else
        bind (if Ascii.eqb c "(" then bind (read_seq f t) (fun q => match snd q with
                                                                  | d :: rest => if Ascii.eqb d ")" then Some (fst q, rest) else None
                                                                  | [] => None
                                                                  end)
              else if Ascii.eqb c "." then Some (RxAny, t)
              else option_map (fun q => (RxClass (fst q), snd q)) (read_atom l)) (fun q =>
        let (r, rest) := postfix (fst q) (snd q) in
        bind (read_seq f rest) (fun q' => Some (RxSeq r (fst q'), snd q')))
    end
  end.
Definition read_rx (l : list ascii) : option rx :=
  match read_seq (S (List.length l)) l with Some (r, []) => Some r | _ => None end.
Fixpoint rx_matches (r : rx) (w : list ascii) : Prop :=
  match r with
  | RxEmpty => w = []
  | RxAny => exists c, w = [c]
  | RxClass s => exists c, w = [c] /\ in_class s c
  | RxStar r => exists ws, w = List.concat ws /\ Forall (rx_matches r) ws
  | RxPlus r => exists ws, ws <> [] /\ w = List.concat ws /\ Forall (rx_matches r) ws
  | RxOpt r => w = [] \/ rx_matches r w
  | RxSeq a b => exists u v, w = u ++ v /\ rx_matches a u /\ rx_matches b v
  end.

(** ** Hosts *)
(** parse_regex_host_value, GenericGatewayYamlParser.py:33-57, other than for None and '*': the text given to dfa_from_regex. *)
Definition host_regex (v : string) : option (list ascii) :=
  if negb (forallb (fun c => Ascii.eqb c "*" || alphabet c) (text v)) then None
  else let res := replace_char "." (text "[.]") (text v) in
    if has_star res then if starts_star res then Some (replace_char "*" (text "[\w]*") res) else None
    else Some res.

(** ** Paths *)
(** The text of get_path_prefix_dfa, GenericGatewayYamlParser.py:103-106, for a path other than '/'. *)
Definition ends_slash (l : list ascii) : bool := match rev l with c :: _ => Ascii.eqb c "/" | [] => false end.
Definition no_slash (l : list ascii) : list ascii := if ends_slash l then removelast l else l.
Definition prefix_regex (p : list ascii) : list ascii := no_slash p ++ text "(/[.\w/\-]*)?".
(** The tuple (path_string, path_type, peers, ports), IngressPolicyYamlParser.py:112, 146. *)
Record ipath := IPath { ip_text : list ascii; ip_exact : bool; ip_peers : option peerset; ip_ports : option portset }.
(** startswith('/') and validate_path_value, IngressPolicyYamlParser.py:37-42. *)
Definition path_ok (l : list ascii) : bool := match l with c :: _ => Ascii.eqb c "/" && forallb alphabet l | [] => false end.
(** An element of a list with its index and the other elements. *)
Definition others {X} (i : nat) (l : list X) : list X := firstn i l ++ skipn (S i) l.

Section Ingress.
Context (dom : dim -> val) (reg : list peer) (cl : cluster) (ks : list k8s_service) (svcs : list service) (dfa : list ascii -> val).
Notation C := (hc val).
Let O := val_ops dom.
Let A := cube_ops dom std_all reg.
Let mk := conns_of dom reg (cl_ports cl).

(** get_path_prefix_dfa, GenericGatewayYamlParser.py:94-107. *)
Definition prefix_dfa (p : list ascii) : val := match p with [c] => if Ascii.eqb c "/" then dom 7 else dfa (prefix_regex p) | _ => dfa (prefix_regex p) end.
(** segregate_longest_paths_and_make_dfa, IngressPolicyYamlParser.py:148-183. *)
Definition full_text (p : ipath) : list ascii := if ip_exact p then ip_text p else match ip_text p with [] => ["/"%char] | l => l end.
Definition path_dfa (p : ipath) : val := if ip_exact p then dfa (ip_text p) else prefix_dfa (full_text p).
Definition segregate_one (ps : list ipath) (i : nat) (p : ipath) : val :=
  if ip_exact p then path_dfa p
  else fold_left (fun v q => if starts_with (full_text p) (full_text q) then vsub O v (path_dfa q) else v) (others i ps) (path_dfa p).
Definition segregate (ps : list ipath) : list (val * ipath) :=
  map (fun ip => (segregate_one ps (fst ip) (snd ip), snd ip)) (combine (seq 0 (List.length ps)) ps).

(** get_service_by_name_and_ns, PeerContainer.py:341-349, with the ports of the service object.  Simplification: the key of the dictionary
    is the pair of the namespace and the name, not the text "namespace/name". *)
Definition find_service (ns name : string) : option (list sport * peerset) :=
  match find (fun s => String.eqb (ks_ns s) ns && String.eqb (ks_name s) name) (rev ks),
        find (fun s => String.eqb (sv_ns s) ns && String.eqb (sv_name s) name) svcs with
  | Some k, Some s => Some (ks_ports k, sv_pods s)
  | _, _ => None
  end.
(** get_port_by_name and get_port_by_number, K8sService.py:86-93, as used in IngressPolicyYamlParser.py:95. *)
Definition find_port (ps : list sport) (name number : yaml) : option sport :=
  match name with
  | YStr (String c s) => find (fun p => ostr_eqb (sp_name p) (Some (String c s))) ps
  | _ => find (fun p => match yint (sp_number p), yint number with Some a, Some b => Z.eqb a b | _, _ => false end) ps
  end.
(** PortSet.add_port of a target port, IngressPolicyYamlParser.py:103-104.  Simplification: a target port that is neither a name nor a
    number is rejected. *)
Definition target_ports (y : yaml) : option portset :=
  match y with
  | YStr s => Some (PortSet [] [s] [])
  | _ => match yint y with Some n => Some (PortSet [Ivl n n] [] []) | None => None end
  end.
Definition all_ports : portset := PortSet [Ivl 1 65535]%Z [] [].
(** parse_backend, IngressPolicyYamlParser.py:44-105. *)
Definition parse_backend (ns : string) (default : bool) (y : yaml) : option (option peerset * option portset * bool) :=
  let none := (None, if default then Some all_ports else None, true) in
  if is_null y then Some none else
  bind (check_fields y [Field "resource" Optional (Some TyDict) None; Field "service" Optional (Some TyDict) None]) (fun m =>
  if ytrue (yget m "resource") && ytrue (yget m "service") then None
  else if ytrue (yget m "resource") then Some none
  else
    bind (check_fields (yget m "service") [Field "name" Mandatory (Some TyStr) None; Field "port" Mandatory (Some TyDict) None]) (fun sm =>
    bind (check_fields (yget sm "port") [Field "name" Optional (Some TyStr) None; Field "number" Optional (Some TyInt) None]) (fun pm =>
    let name := yget pm "name" in
    let number := yget pm "number" in
    if ytrue name && ytrue number then None
    else if ytrue number && negb (match yint number with Some n => Z.leb 1 n && Z.leb n 65535 | None => false end) then None
    else
      match yget sm "name" with
      | YStr s =>
        match find_service ns s with
        | None => Some (None, None, false)
        | Some (ports, pods) =>
          match find_port ports name number with
          | None => Some (None, None, false)
          | Some p => bind (target_ports (sp_target p)) (fun q => Some (Some pods, Some q, true))
          end
        end
      | _ => None
      end))).

(** The attributes default_backend_peers and default_backend_ports. *)
Context (ns : string) (dpeers : option peerset) (dports : option portset).
Definition some_peers (o : option peerset) : bool := match o with Some (_ :: _) => true | _ => false end.
(** parse_ingress_path, IngressPolicyYamlParser.py:107-146; [Some None]: the path is ignored. *)
Definition parse_path (y : yaml) : option (option ipath) :=
  bind (check_fields y [Field "backend" Mandatory (Some TyDict) None; Field "path" Optional (Some TyStr) None;
                        Field "pathType" Mandatory (Some TyStr) (Some (among ["ImplementationSpecific"; "Exact"; "Prefix"]))]) (fun m =>
  bind (parse_backend ns false (yget m "backend")) (fun b =>
  let '(peers, ports, override) := b in
  if negb (some_peers peers) && negb override then Some None
  else
    let peers' := if some_peers peers then peers else dpeers in
    let ports' := if some_peers peers then ports else dports in
    match yget m "path", yget m "pathType" with
    | YStr p, YStr ty =>
      if negb (path_ok (text p)) then None
      else let prefix := String.eqb ty "Prefix" || String.eqb ty "ImplementationSpecific" in
        Some (Some (IPath (if prefix then no_slash (text p) else text p) (String.eqb ty "Exact") peers' ports'))
    | _, _ => None
    end)).

(** _make_default_connections, IngressPolicyYamlParser.py:185-201; a MinDFA is true if its language is not empty. *)
Definition default_conns (hosts paths : option val) : C :=
  if some_peers dpeers then
    let keep o := match o with Some v => if vbool O v then Some v else None | None => None end in
    mk (CDict None dpeers None None dports None (keep hosts) (keep paths) None None)
  else c_empty A.
(** One turn of the loop of parse_rule, IngressPolicyYamlParser.py:229-237: (conn_cube, allowed_conns, all_paths_dfa).  A value None does
    not change the cube (ConnectivityCube.py:88-89), so the value of the path before stays; after a cube with named ports this is one
    of its peers, in an order that is not specified (make_conn_props, ConnectivityProperties.py:310-315): rejected here. *)
Definition or_keep {X} (o old : option X) : option X := match o with Some _ => o | None => old end.
Definition path_step (hosts : option val) (acc : option (cdict * C * option val)) (vp : val * ipath) : option (cdict * C * option val) :=
  bind acc (fun st =>
  let '(k, c, all) := st in
  let (v, p) := vp in
  if (match ip_peers p, ip_ports p with Some _, Some _ => false | _, _ => true end) && (match names_of k with [] => false | _ => true end) then None
  else
    let k' := CDict None (or_keep (ip_peers p) (k_dst k)) None None (or_keep (ip_ports p) (k_dports k)) None hosts (Some v) None None in
    Some (k', c_or A c (mk k'), Some (match all with Some u => if vbool O u then vor O u v else v | None => v end))).
(** parse_regex_host_value, GenericGatewayYamlParser.py:33-57, for the value of the key host. *)
Definition parse_host (y : yaml) : option (option val) :=
  match y with
  | YNull => Some None
  | YStr s => if String.eqb s "*" then Some (Some (dom 6)) else option_map (fun t => Some (dfa t)) (host_regex s)
  | _ => None
  end.
(** parse_rule, IngressPolicyYamlParser.py:203-244: (allowed connections, hosts_dfa). *)
Definition parse_rule (y : yaml) : option (C * option val) :=
  bind (check_fields y [Field "host" Optional (Some TyStr) None; Field "http" Optional (Some TyDict) None]) (fun m =>
  bind (parse_host (yget m "host")) (fun hosts =>
  match yget m "http" with
  | YMap hm =>
    match yget hm "paths" with
    | YNull => Some (c_or A (c_empty A) (default_conns hosts None), hosts)
    | YList (x :: t) =>
      bind (mapM parse_path (x :: t)) (fun os =>
      match flat_map (fun o => match o with Some p => [p] | None => [] end) os with
      | [] => Some (c_or A (c_empty A) (c_empty A), hosts)
      | ps =>
        bind (fold_left (path_step hosts) (segregate ps) (Some (CDict None None None None None None hosts None None None, c_empty A, None))) (fun st =>
        let '(_, c, all) := st in
        Some (c_or A c (default_conns hosts (option_map (vsub O (dom 7)) all)), hosts))
      end)
    | _ => None
    end
  | _ => None
  end)).
(** One turn of the loop of parse_policy, IngressPolicyYamlParser.py:276-285: (allowed_conns, all_hosts_dfa). *)
Definition rule_step (acc : option (C * option val)) (y : yaml) : option (C * option val) :=
  bind acc (fun st => bind (parse_rule y) (fun r =>
  let hosts := match snd r with
               | Some v => if vbool O v then Some (match snd st with Some u => if vbool O u then vor O u v else v | None => v end) else Some (dom 6)
               | None => Some (dom 6)
               end in
  Some (c_or A (fst st) (fst r), hosts))).
(** The loop and the default connections, IngressPolicyYamlParser.py:274-290; [domain - None] raises an exception. *)
Definition parse_rules (l : list yaml) : option C :=
  bind (fold_left rule_step l (Some (c_empty A, None))) (fun st =>
  if some_peers dpeers then
    match snd st with
    | Some hosts => Some (c_or A (fst st) (default_conns (Some (vsub O (dom 6) hosts)) None))
    | None => None
    end
  else Some (fst st)).
End Ingress.

Section Policy.
Context (dom : dim -> val) (reg : list peer) (cl : cluster) (ks : list k8s_service) (svcs : list service) (dfa : list ascii -> val).
Notation C := (hc val).
Let O := val_ops dom.
(** _make_allow_rules, GenericGatewayYamlParser.py:72-92: one rule for each cube. *)
Definition tcp_set : iset := [Ivl 6 6]%Z.
Definition allow_rule (src : peerset) (h : C) (k : list val) : option (rule (C:=C)) :=
  let c := cube_at O (act_of h) k in
  match c 1 with
  | VI l => bind (peer_set_by_indices reg l) (fun s =>
            Some (Rule Allow s [] (make_props O (dim_empty dom) std_all (ccube_set (ccube_set c 0 (peers_val reg src)) 2 (VI tcp_set)))))
  | VN _ _ => None
  end.
Definition allow_rules (h : C) (src : peerset) : option (list (rule (C:=C))) :=
  if mem_dim 0 (act_of h) then None else mapM (allow_rule src h) (iter_cubes O std_all h).
(** get_pods_with_service_name_containing_given_string, PeerContainer.py:227-237. *)
Definition controller_pods : peerset :=
  fold_left (fun r s => if contains_str "ingress-nginx" (sv_ns s ++ "/" ++ sv_name s)%string then ps_union r (sv_pods s) else r) svcs [].
(** parse_policy, IngressPolicyYamlParser.py:246-296.  Simplification: a namespace that is null is rejected. *)
Definition ingress_policy (y : yaml) : option (option (policy (C:=C))) :=
  bind (parse_generic y ["Ingress"] ["networking.k8s.io/v1"] ["k8s"] true false true) (fun o =>
  match o with
  | None => Some None
  | Some (m, name, YStr t) =>
    let ns := ns_name t in
    bind (check_fields (yget m "spec") [Field "defaultBackend" Optional (Some TyDict) None; Field "ingressClassName" Optional (Some TyStr) None;
                                        Field "rules" Optional (Some TyList) None; Field "tls" Optional (Some TyList) None]) (fun sp =>
    bind (parse_backend ks svcs ns true (yget sp "defaultBackend")) (fun b =>
    let '(dpeers, dports, _) := b in
    bind (match assoc_s "rules" sp with None => Some [] | Some (YList l) => Some l | Some _ => None end) (fun l =>
    bind (parse_rules dom reg cl ks svcs dfa ns dpeers dports l) (fun h =>
    bind (if hbool h then allow_rules h controller_pods else Some []) (fun rs =>
    Some (Some (Policy ("Allow policy for Ingress resource " ++ name)%string ns TIngress false true controller_pods [] rs None Allow)))))))
  | Some _ => None
  end).
End Policy.
