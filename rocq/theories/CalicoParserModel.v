(** * Model of nca/Parsers/CalicoPolicyYamlParser.py: from a decoded Calico document to a policy.

    Selectors are in CalicoSelectorModel.v.  [net] is ipaddress.ip_network(text, strict=False) (Python library), [None] for
    ValueError/TypeError.  [profiles] are the profiles of a peer (Peer.py:67).  [mk k] is make_conn_props_from_dict(k),
    or make_conn_props of the cube with the entries of k (ConnDict.v).  A namespace is its name.  Not modelled: warnings,
    referenced_labels, has_ipv6_addresses, findings, and that labelsToApply of a profile adds labels to pods. *)
From Coq Require Import ZArith List Bool Arith String Ascii.
From Verif Require Import IntervalModel TextModel PortProtoModel PeerModel HyperModel ConnModel PolicyModel YamlModel ClusterModel
                          K8sParserModel CalicoSelectorModel ConnDict.
Import ListNotations.
Local Open Scope string_scope.
Local Open Scope list_scope.
Local Open Scope nat_scope.

(** ** Python *)
(** [for x in value]: a list, the keys of a dictionary or the characters of a string; else TypeError. *)
Definition yiter (y : yaml) : option (list yaml) :=
  match y with
  | YList l => Some l
  | YMap m => Some (map (fun kv => YStr (fst kv)) m)
  | YStr s => Some (map (fun c => YStr (String c EmptyString)) (text s))
  | _ => None
  end.
(** [d.get(k, [])]: the default only applies when the key is missing. *)
Definition yget_list (m : list (string * yaml)) (k : string) : yaml := match assoc_s k m with Some v => v | None => YList [] end.
Definition has (m : list (string * yaml)) (k : string) : bool := match assoc_s k m with Some _ => true | None => false end.
(** Python [int(text)]: white space around, a sign, and digits with single underscores between them. *)
Definition digit_char (c : ascii) : bool := (N.leb 48 (N_of_ascii c) && N.leb (N_of_ascii c) 57)%bool.
Fixpoint digits_of (after_digit : bool) (l : list ascii) : option (list ascii) :=
  match l with
  | [] => if after_digit then Some [] else None
  | c :: t => if digit_char c then option_map (cons c) (digits_of true t)
              else if Ascii.eqb c "_" && after_digit then
                match t with d :: _ => if digit_char d then digits_of false t else None | [] => None end
              else None
  end.
Definition unsigned_int (l : list ascii) : option Z := bind (digits_of false l) (fun ds => Z_of_str (untext ds)).
Definition py_int (s : string) : option Z :=
  match Z_of_str s with
  | Some z => Some z
  | None => match strip (text s) with
            | c :: t => if Ascii.eqb c "-" then option_map Z.opp (unsigned_int t)
                        else if Ascii.eqb c "+" then unsigned_int t else unsigned_int (c :: t)
            | [] => None
            end
  end.

(** _parse_port, CalicoPolicyYamlParser.py:232-259 (a value that is no int and no str gives the empty PortSet). *)
Definition calico_port (y : yaml) : option portset :=
  match y with
  | YStr s =>
    match split ":" s with
    | [l; r] =>
      match py_int l, py_int r with
      | Some a, Some b =>
        if port_in_domain a && port_in_domain b && (a <=? b)%Z then ps_add_range (ps_new false) a b else None
      | _, _ => ps_add_port (ps_new false) (PName s)
      end
    | _ => ps_add_port (ps_new false) (PName s)
    end
  | _ => match yint y with
         | Some a => if port_in_domain a then ps_add_port (ps_new false) (PNum a) else None
         | None => Some (ps_new false)
         end
  end.
(** _get_rule_ports, CalicoPolicyYamlParser.py:311-336. *)
Definition rule_ports (m : list (string * yaml)) (supports_ports : bool) : option portset :=
  bind (match yget m "ports" with
        | YNull => Some (ps_new true)
        | y => if supports_ports then
                 bind (yiter y) (fun l => fold_left (fun acc p => bind acc (fun r => bind (calico_port p) (fun q => ps_or r q))) l
                                                    (Some (ps_new false)))
               else None
        end) (fun ps =>
  match yget m "notPorts" with
  | YNull => Some ps
  | y => if supports_ports then
           bind (yiter y) (fun l => fold_left (fun acc p => bind acc (fun r => bind (calico_port p) (fun q => Some (ps_sub r q)))) l (Some ps))
         else None
  end).

(** _parse_protocol, CalicoPolicyYamlParser.py:432-449: [Some None] for None. *)
Definition calico_protocol (y : yaml) : option (option Z) :=
  match y with
  | YNull => Some None
  | YStr s => if smem s ["TCP"; "UDP"; "ICMP"; "ICMPv6"; "SCTP"; "UDPLite"]
              then option_map Some (get_protocol_number (ProtoName s)) else None
  | _ => match yint y with Some n => if is_valid_protocol n then Some (Some n) else None | None => None end
  end.

(** check_icmp_code_type_validity and the checks of _parse_icmp, CalicoPolicyYamlParser.py:352-371, 384-399: type and code
    of an icmp or notICMP element. *)
Definition icmp_element (y : yaml) : option (Z * option Z) :=
  bind (check_fields y [Field "type" Optional None None; Field "code" Optional None None]) (fun m =>
  match yint (yget m "type") with     (* None or a value of another type: syntax error or AssertionError *)
  | Some t =>
    if negb ((0 <=? t)%Z && (t <=? 254)%Z) then None
    else match yget m "code" with
         | YNull => Some (t, None)
         | c => match yint c with Some n => if (0 <=? n)%Z && (n <=? 255)%Z then Some (t, Some n) else None | None => None end
         end
  | None => None
  end).
(** The truth value of an optional number. *)
Definition nonzero (o : option Z) : option Z := match o with Some n => if (n =? 0)%Z then None else Some n | None => None end.
Definition zeqb_opt (a b : option Z) : bool :=
  match a, b with Some x, Some y => (x =? y)%Z | None, None => true | _, _ => false end.

(** action_str_to_action_type, CalicoNetworkPolicy.py:51-68; an unknown action is a syntax error (or a TypeError). *)
Definition calico_action (y : yaml) : option action :=
  match y with
  | YStr s => if String.eqb s "Deny" then Some Deny else if String.eqb s "Allow" then Some Allow
              else if String.eqb s "Log" then Some Log else if String.eqb s "Pass" then Some Pass else None
  | _ => None
  end.

Section Parser.
Context (cl : cluster) (net : yaml -> option cidr) (profiles : peer -> list string).

(** IpBlock(cidr), Peer.py:274-289. *)
Definition ip_block (y : yaml) : option iset := if ytrue y then bind (net y) (fun c => add_cidr [] c []) else Some [].
(** _get_rule_peers, CalicoPolicyYamlParser.py:261-309. *)
Definition rule_peers (ns : option string) (m : list (string * yaml)) : option peerset :=
  let nets := yget m "nets" in let not_nets := yget_list m "notNets" in
  let ns_selector := yget m "namespaceSelector" in let selector := yget m "selector" in let not_selector := yget m "notSelector" in
  bind (if ytrue nets then
          match nets with
          | YMap _ => None                    (* nets[0]: KeyError *)
          | _ => bind (yiter nets) (fun l => match l with
                 | [] => None
                 | c :: t => fold_left (fun acc d => bind acc (fun r => bind (ip_block d) (fun b => ipb_or r b))) t (ip_block c)
                 end)
          end
        else Some all_ips) (fun ips =>
  bind (bind (yiter not_nets) (fun l => fold_left (fun acc d => bind acc (fun r => bind (ip_block d) (fun b => Some (ipb_sub r b)))) l (Some ips)))
    (fun rule_ips =>
  bind (if ytrue ns_selector then calico_selector cl None true ns_selector
        else if ytrue selector then Some (namespace_pods cl ns)
        else if ytrue nets || ytrue not_nets then Some [Block rule_ips]
        else Some (peers_group (cl_peers cl) true true)) (fun peers =>
  let ns_to_use := if ytrue ns_selector then None else ns in
  bind (if is_null selector then Some peers else meet (Some peers) (calico_selector cl ns_to_use false selector)) (fun peers =>
  bind (if ytrue not_selector then bind (calico_selector cl ns_to_use false not_selector) (fun s => ps_diff peers s) else Some peers) (fun peers =>
  Some (if (ytrue nets || ytrue not_nets) && (ytrue ns_selector || ytrue selector) then [] else peers)))))).

(** _parse_entity_rule, CalicoPolicyYamlParser.py:338-350. *)
Definition entity_fields : list field :=
  map (fun k => Field k Optional None None) ["nets"; "notNets"; "selector"; "notSelector"; "namespaceSelector"; "ports"; "notPorts"]
  ++ [Field "serviceAccounts" Unsupported None None].
(** ... and lines 475-487: a missing or empty source/destination is everything. *)
Definition entity (ns : option string) (supports_ports : bool) (y : yaml) : option (peerset * portset) :=
  if ytrue y then
    bind (check_fields y entity_fields) (fun m =>
    bind (rule_peers ns m) (fun ps => bind (rule_ports m supports_ports) (fun ports => Some (ps, ports))))
  else Some (peers_group (cl_peers cl) true true, ps_new true).

Section Rules.
Context {C : Type} (A : cops C) (mk : cdict -> C).

(** ProtocolSet.get_protocol_set_with_single_protocol, ProtocolSet.py:147-152. *)
Definition single (pr : Z) : iset := [Ivl pr pr].
(** _parse_icmp, CalicoPolicyYamlParser.py:373-430. *)
Definition icmp_cube (src dst : peerset) (pr : Z) (e : option (Z * option Z)) : C :=
  let ty := match e with Some (t, _) => nonzero (Some t) | None => None end in
  let co := match ty, e with Some _, Some (_, c) => nonzero c | _, _ => None end in
  mk (CDict (Some src) (Some dst) (Some (single pr)) None None None None None ty co).
Definition opt_element (y : yaml) : option (option (Z * option Z)) :=
  match y with YNull => Some None | _ => option_map Some (icmp_element y) end.
Definition icmp_props (src dst : peerset) (pr : Z) (icmp not_icmp : yaml) : option C :=
  bind (opt_element icmp) (fun e => bind (opt_element not_icmp) (fun n =>
  let yes := icmp_cube src dst pr e in
  Some (match e, n with
        | Some (t, c), Some (nt, nc) =>
          if (t =? nt)%Z && zeqb_opt c nc then yes
          else if (t =? nt)%Z && match c with None => true | Some _ => false end then c_sub A yes (icmp_cube src dst pr n)
          else yes
        | None, Some _ => c_sub A yes (icmp_cube src dst pr n)
        | _, None => yes
        end))).

(** _parse_xgress_rule, CalicoPolicyYamlParser.py:451-530. *)
Definition rule_fields : list field :=
  Field "action" Mandatory None None ::
  map (fun k => Field k Optional None None) ["protocol"; "notProtocol"; "icmp"; "notICMP"; "ipVersion"; "source"; "destination"]
  ++ [Field "http" Unsupported None None].
Definition calico_rule (ns : option string) (ingress : bool) (selected : peerset) (y : yaml) : option (rule (C:=C)) :=
  bind (check_fields y rule_fields) (fun m =>
  bind (calico_action (yget m "action")) (fun act =>
  bind (calico_protocol (yget m "protocol")) (fun protocol =>
  bind (match protocol with Some p => protocol_supports_ports (ProtoNum p) | None => Some false end) (fun supports =>
  bind (calico_protocol (yget m "notProtocol")) (fun not_protocol =>
  bind (entity ns supports (yget m "source")) (fun s => bind (entity ns supports (yget m "destination")) (fun d =>
  bind (if ingress then ps_inter (fst d) selected else Some (fst d)) (fun dst =>
  bind (if ingress then Some (fst s) else ps_inter (fst s) selected) (fun src =>
  bind (match protocol, not_protocol with
        | Some _, Some _ => Some (c_empty A)
        | Some p, None =>
          if supports then Some (mk (CDict (Some src) (Some dst) (Some (single p)) (Some (port_set (snd s))) (Some (snd d)) None None None None None))
          else bind (protocol_is_icmp (ProtoNum p)) (fun icmp =>
               if icmp then icmp_props src dst p (yget m "icmp") (yget m "notICMP")
               else Some (mk (CDict (Some src) (Some dst) (Some (single p)) None None None None None None None)))
        | None, Some n =>
          if pbool src && pbool dst then
            bind (pr_remove (pr_new true) (ProtoNum n)) (fun ps => Some (mk (CDict (Some src) (Some dst) (Some ps) None None None None None None None)))
          else Some (c_empty A)
        | None, None => Some (mk (CDict (Some src) (Some dst) None None None None None None None None))
        end) (fun props => Some (Rule act src dst props))))))))))).

(** get_policy_type_from_dict, NetworkPolicy.py:45-66, for an accepted apiVersion. *)
Definition kind_type (kind : string) : ptype :=
  if String.eqb kind "Profile" then TCalicoProfile else if String.eqb kind "GlobalNetworkPolicy" then TCalicoGlobal else TCalico.
(** _set_affects_ingress_egress, CalicoPolicyYamlParser.py:552-582: the two flags. *)
Definition spec_fields (global : bool) : list field :=
  map (fun k => Field k Optional None None) ["order"; "selector"; "ingress"; "egress"; "types"; "labelsToApply"]
  ++ map (fun k => Field k Ignored None None) ["doNotTrack"; "preDNAT"; "applyOnForward"]
  ++ (if global then [Field "namespaceSelector" Optional None None] else []).
(** The elements of types: set(policy_types) and [in].  A string that is not empty has bad types (its characters). *)
Definition types_of (y : yaml) : option (list yaml) := match y with YStr "" => Some [] | YStr _ => None | _ => yiter y end.
Definition affects (sp : list (string * yaml)) : option (bool * bool) :=
  bind (types_of (yget_list sp "types")) (fun types =>
  if negb (forallb (among ["Egress"; "Ingress"]) types) then None
  else let none := match types with [] => true | _ => false end in
       let aff_in := existsb (among ["Ingress"]) types || (none && (has sp "ingress" || negb (has sp "egress"))) in
       let aff_eg := existsb (among ["Egress"]) types || (none && has sp "egress") in
       if (negb aff_in && has sp "ingress") || (negb aff_eg && has sp "egress") then None else Some (aff_in, aff_eg)).
(** get_profile_pods(profile_name, True), PeerContainer.py:284-300. *)
Definition profile_pods (name : string) : peerset :=
  select cl (fun p => match profiles p with f :: _ => String.eqb f name | [] => false end).
(** _get_selected_peers, CalicoPolicyYamlParser.py:584-609. *)
Definition selected_peers (ns : option string) (profile : bool) (name : string) (sp : list (string * yaml)) : option peerset :=
  let selector := yget sp "selector" in
  if negb (ytrue selector) && profile then Some (profile_pods name)
  else bind (if ytrue selector then if profile then None else meet (Some (all_group cl)) (calico_selector cl ns false selector)
             else Some (namespace_pods cl ns)) (fun peers =>
       if ytrue (yget sp "namespaceSelector") then meet (Some peers) (calico_selector cl None true (yget sp "namespaceSelector"))
       else Some peers).
(** The order of a policy: None, or an integer (other values, e.g. fractions, are outside the model). *)
Definition order_of (y : yaml) : option (option Z) := match y with YNull => Some None | _ => option_map Some (yint y) end.

(** parse_policy, CalicoPolicyYamlParser.py:611-656.  [Some None]: not a Calico policy. *)
Definition calico_policy (y : yaml) : option (option (policy (C:=C))) :=
  bind (parse_generic y ["NetworkPolicy"; "GlobalNetworkPolicy"; "Profile"] ["projectcalico.org/v3"] ["calico"] false true true) (fun o =>
  match o with
  | None => Some None
  | Some (m, name, nsy) =>
    match yget m "kind", yget m "spec" with
    | YStr kind, YMap sp =>
      let profile := String.eqb kind "Profile" in let global := String.eqb kind "GlobalNetworkPolicy" in
      if ytrue nsy && global then None
      else
        let ns := if ytrue nsy then match nsy with YStr s => Some s | _ => None end
                  else if String.eqb kind "NetworkPolicy" then Some "default" else None in
        bind (check_fields (YMap sp) (spec_fields global)) (fun _ =>
        bind (affects sp) (fun fl =>
        bind (selected_peers ns profile name sp) (fun sel =>
        if profile && ytrue (yget sp "order") then None
        else
        bind (bind (yiter (yget_list sp "ingress")) (mapM (calico_rule ns true sel))) (fun ins =>
        bind (bind (yiter (yget_list sp "egress")) (mapM (calico_rule ns false sel))) (fun egs =>
        if ytrue (yget sp "labelsToApply") && negb profile then None
        else bind (order_of (yget sp "order")) (fun ord =>
             Some (Some (Policy name (match ns with Some s => s | None => "" end) (kind_type kind) (fst fl) (snd fl) sel ins egs ord Allow))))))))
    | _, _ => None
    end
  end).
End Rules.
End Parser.
