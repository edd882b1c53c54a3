(** * Model of nca/CoreDS/PortSet.py, ProtocolSet.py, MethodSet.py, ProtocolNameResolver.py,
      and of the string forms in CanonicalIntervalSet.py. *)
From Coq Require Import ZArith List Bool String Ascii.
From Verif Require Import IntervalModel TextModel.
Import ListNotations.
Local Open Scope string_scope.
Local Open Scope Z_scope.

(** ** Strings of interval sets *)

(** The loop body of __repr__, CanonicalIntervalSet.py:42-46 (without the trailing comma). *)
Definition ivl_text (i : ivl) : string :=
  str_of_Z (lo i) ++ (if lo i =? hi i then "" else "-" ++ str_of_Z (hi i)).
(** Python [res[0:-1]]. *)
Fixpoint drop_last (s : string) : string :=
  match s with
  | EmptyString => ""
  | String a EmptyString => ""
  | String a t => String a (drop_last t)
  end.
(** CanonicalIntervalSet.__repr__, CanonicalIntervalSet.py:38-47. *)
Definition iset_repr (l : iset) : string :=
  match l with
  | [] => "Empty"
  | _ => drop_last (fold_left (fun res i => res ++ ivl_text i ++ ",") l "")
  end.
(** The items of get_interval_set_list_numbers_and_ranges as they are printed,
    CanonicalIntervalSet.py:349-362. *)
Definition iset_items_text (l : iset) : list string := map ivl_text l.

(** ** PortSet.py *)
(** A Python set of strings: a list without repetition. *)
Definition sset := list string.
Definition smem (x : string) (s : sset) : bool := existsb (String.eqb x) s.
Definition sadd (x : string) (s : sset) : sset := if smem x s then s else (s ++ [x])%list.
Definition sdiscard (x : string) (s : sset) : sset := filter (fun y => negb (String.eqb x y)) s.
Definition sunion (s t : sset) : sset := fold_left (fun r x => sadd x r) t s.
Definition sminus (s t : sset) : sset := filter (fun y => negb (smem y t)) s.
Definition sset_eqb (s t : sset) : bool := forallb (fun x => smem x t) s && forallb (fun x => smem x s) t.

(** PortSet.__init__ fields, PortSet.py:17-23. *)
Record portset := PortSet { port_set : iset; named_ports : sset; excluded_named_ports : sset }.

(** DimensionsManager.py: domain of "dst_ports" (all_ports_interval, PortSet.py:15). *)
Definition all_ports_interval : iset := [Ivl 1 65535].

(** PortSet.__init__, PortSet.py:17-23. *)
Definition ps_new (all_ports : bool) : portset :=
  PortSet (if all_ports then all_ports_interval else []) [] [].

(** A port argument: [isinstance(port, str)] or a number. *)
Inductive port := PNum (n : Z) | PName (s : string).

(** Interval-set operations that could fail are [option] in the interval model; the failure
    is propagated. *)
Definition bind {A B} (x : option A) (f : A -> option B) : option B :=
  match x with Some a => f a | None => None end.

(** add_port, PortSet.py:51-57. *)
Definition ps_add_port (p : portset) (x : port) : option portset :=
  match x with
  | PName s => Some (PortSet (port_set p) (sadd s (named_ports p)) (sdiscard s (excluded_named_ports p)))
  | PNum n => bind (add_interval (port_set p) (Ivl n n)) (fun l =>
                Some (PortSet l (named_ports p) (excluded_named_ports p)))
  end.
(** add_ports, PortSet.py:59-60. *)
Definition ps_add_ports (p : portset) (l : iset) : option portset :=
  bind (iset_or (port_set p) l) (fun r => Some (PortSet r (named_ports p) (excluded_named_ports p))).
(** remove_port, PortSet.py:62-68. *)
Definition ps_remove_port (p : portset) (x : port) : portset :=
  match x with
  | PName s => PortSet (port_set p) (sdiscard s (named_ports p)) (sadd s (excluded_named_ports p))
  | PNum n => PortSet (add_hole (port_set p) (Ivl n n)) (named_ports p) (excluded_named_ports p)
  end.
(** add_port_range, PortSet.py:70-72. *)
Definition ps_add_range (p : portset) (a b : Z) : option portset :=
  bind (add_interval (port_set p) (Ivl a b)) (fun l => Some (PortSet l (named_ports p) (excluded_named_ports p))).
(** __ior__, PortSet.py:74-78. *)
Definition ps_or (p q : portset) : option portset :=
  bind (iset_or (port_set p) (port_set q)) (fun l =>
    Some (PortSet l (sunion (named_ports p) (named_ports q)) (sminus (excluded_named_ports p) (named_ports q)))).
(** __isub__, PortSet.py:80-84. *)
Definition ps_sub (p q : portset) : portset :=
  PortSet (iset_sub (port_set p) (port_set q)) (sminus (named_ports p) (named_ports q))
          (sunion (excluded_named_ports p) (named_ports q)).
(** __eq__, PortSet.py:25-29. *)
Definition ps_eqb (p q : portset) : bool :=
  iset_eqb (port_set p) (port_set q) && sset_eqb (named_ports p) (named_ports q) &&
  sset_eqb (excluded_named_ports p) (excluded_named_ports q).
(** __bool__, PortSet.py:31-32; is_empty (89-90) is its negation; is_all, 86-87. *)
Definition ps_bool (p : portset) : bool :=
  iset_bool (port_set p) || match named_ports p with [] => false | _ => true end.
Definition ps_is_empty (p : portset) : bool :=
  negb (iset_bool (port_set p)) && negb (match named_ports p with [] => false | _ => true end).
Definition ps_is_all (p : portset) : bool := iset_eqb (port_set p) all_ports_interval.

(** ** ProtocolNameResolver.py *)
(** _protocol_name_to_number_dict, ProtocolNameResolver.py:10-33. *)
Definition name_to_number : list (string * Z) :=
  [("HOPOPT", 0); ("ICMP", 1); ("IGMP", 2); ("GGP", 3); ("IPv4", 4); ("ST", 5); ("TCP", 6); ("CBT", 7);
   ("EGP", 8); ("IGP", 9); ("BBNRCCMON", 10); ("NVPII", 11); ("PUP", 12); ("ARGUSdeprecated", 13);
   ("EMCON", 14); ("XNET", 15); ("CHAOS", 16); ("UDP", 17); ("MUX", 18); ("DCNMEAS", 19); ("HMP", 20);
   ("PRM", 21); ("XNSIDP", 22); ("TRUNK1", 23); ("TRUNK2", 24); ("LEAF1", 25); ("LEAF2", 26); ("RDP", 27);
   ("IRTP", 28); ("ISOTP4", 29); ("NETBLT", 30); ("MFENSP", 31); ("MERITINP", 32); ("DCCP", 33); ("3PC", 34);
   ("IDPR", 35); ("XTP", 36); ("DDP", 37); ("IDPRCMTP", 38); ("TP", 39); ("IL", 40); ("IPv6", 41);
   ("SDRP", 42); ("IPv6Route", 43); ("IPv6Frag", 44); ("IDRP", 45); ("RSVP", 46); ("GRE", 47); ("DSR", 48);
   ("BNA", 49); ("ESP", 50); ("AH", 51); ("INLSP", 52); ("SWIPEdeprecated", 53); ("NARP", 54);
   ("MOBILE", 55); ("TLSP", 56); ("SKIP", 57); ("ICMPv6", 58); ("IPv6NoNxt", 59); ("IPv6Opts", 60);
   ("CFTP", 62); ("SATEXPAK", 64); ("KRYPTOLAN", 65); ("RVD", 66); ("IPPC", 67); ("SATMON", 69);
   ("VISA", 70); ("IPCV", 71); ("CPNX", 72); ("CPHB", 73); ("WSN", 74); ("PVP", 75); ("BRSATMON", 76);
   ("SUNND", 77); ("WBMON", 78); ("WBEXPAK", 79); ("ISOIP", 80); ("VMTP", 81); ("SECUREVMTP", 82);
   ("VINES", 83); ("TTP", 84); ("IPTM", 84); ("NSFNETIGP", 85); ("DGP", 86); ("TCF", 87); ("EIGRP", 88);
   ("OSPFIGP", 89); ("SpriteRPC", 90); ("LARP", 91); ("MTP", 92); ("AX25", 93); ("IPIP", 94);
   ("MICPdeprecated", 95); ("SCCSP", 96); ("ETHERIP", 97); ("ENCAP", 98); ("GMTP", 100); ("IFMP", 101);
   ("PNNI", 102); ("PIM", 103); ("ARIS", 104); ("SCPS", 105); ("QNX", 106); ("AN", 107); ("IPComp", 108);
   ("SNP", 109); ("CompaqPeer", 110); ("IPXinIP", 111); ("VRRP", 112); ("PGM", 113); ("L2TP", 115);
   ("DDX", 116); ("IATP", 117); ("STP", 118); ("SRP", 119); ("UTI", 120); ("SMP", 121);
   ("SMdeprecated", 122); ("PTP", 123); ("ISISoverIPv4", 124); ("FIRE", 125); ("CRTP", 126); ("CRUDP", 127);
   ("SSCOPMCE", 128); ("IPLT", 129); ("SPS", 130); ("PIPE", 131); ("SCTP", 132); ("FC", 133);
   ("RSVPE2EIGNORE", 134); ("MobilityHeader", 135); ("UDPLite", 136); ("MPLSinIP", 137); ("manet", 138);
   ("HIP", 139); ("Shim6", 140); ("WESP", 141); ("ROHC", 142); ("Ethernet", 143)].
(** _protocol_number_to_name_dict, ProtocolNameResolver.py:34-57. *)
Definition number_to_name : list (Z * string) :=
  [(0, "HOPOPT"); (1, "ICMP"); (2, "IGMP"); (3, "GGP"); (4, "IPv4"); (5, "ST"); (6, "TCP"); (7, "CBT");
   (8, "EGP"); (9, "IGP"); (10, "BBNRCCMON"); (11, "NVPII"); (12, "PUP"); (13, "ARGUSdeprecated");
   (14, "EMCON"); (15, "XNET"); (16, "CHAOS"); (17, "UDP"); (18, "MUX"); (19, "DCNMEAS"); (20, "HMP");
   (21, "PRM"); (22, "XNSIDP"); (23, "TRUNK1"); (24, "TRUNK2"); (25, "LEAF1"); (26, "LEAF2"); (27, "RDP");
   (28, "IRTP"); (29, "ISOTP4"); (30, "NETBLT"); (31, "MFENSP"); (32, "MERITINP"); (33, "DCCP"); (34, "3PC");
   (35, "IDPR"); (36, "XTP"); (37, "DDP"); (38, "IDPRCMTP"); (39, "TP"); (40, "IL"); (41, "IPv6");
   (42, "SDRP"); (43, "IPv6Route"); (44, "IPv6Frag"); (45, "IDRP"); (46, "RSVP"); (47, "GRE"); (48, "DSR");
   (49, "BNA"); (50, "ESP"); (51, "AH"); (52, "INLSP"); (53, "SWIPEdeprecated"); (54, "NARP");
   (55, "MOBILE"); (56, "TLSP"); (57, "SKIP"); (58, "ICMPv6"); (59, "IPv6NoNxt"); (60, "IPv6Opts");
   (62, "CFTP"); (64, "SATEXPAK"); (65, "KRYPTOLAN"); (66, "RVD"); (67, "IPPC"); (69, "SATMON");
   (70, "VISA"); (71, "IPCV"); (72, "CPNX"); (73, "CPHB"); (74, "WSN"); (75, "PVP"); (76, "BRSATMON");
   (77, "SUNND"); (78, "WBMON"); (79, "WBEXPAK"); (80, "ISOIP"); (81, "VMTP"); (82, "SECUREVMTP");
   (83, "VINES"); (84, "IPTM"); (85, "NSFNETIGP"); (86, "DGP"); (87, "TCF"); (88, "EIGRP"); (89, "OSPFIGP");
   (90, "SpriteRPC"); (91, "LARP"); (92, "MTP"); (93, "AX25"); (94, "IPIP"); (95, "MICPdeprecated");
   (96, "SCCSP"); (97, "ETHERIP"); (98, "ENCAP"); (100, "GMTP"); (101, "IFMP"); (102, "PNNI"); (103, "PIM");
   (104, "ARIS"); (105, "SCPS"); (106, "QNX"); (107, "AN"); (108, "IPComp"); (109, "SNP");
   (110, "CompaqPeer"); (111, "IPXinIP"); (112, "VRRP"); (113, "PGM"); (115, "L2TP"); (116, "DDX");
   (117, "IATP"); (118, "STP"); (119, "SRP"); (120, "UTI"); (121, "SMP"); (122, "SMdeprecated");
   (123, "PTP"); (124, "ISISoverIPv4"); (125, "FIRE"); (126, "CRTP"); (127, "CRUDP"); (128, "SSCOPMCE");
   (129, "IPLT"); (130, "SPS"); (131, "PIPE"); (132, "SCTP"); (133, "FC"); (134, "RSVPE2EIGNORE");
   (135, "MobilityHeader"); (136, "UDPLite"); (137, "MPLSinIP"); (138, "manet"); (139, "HIP");
   (140, "Shim6"); (141, "WESP"); (142, "ROHC"); (143, "Ethernet")].

Fixpoint assoc_s {A} (k : string) (l : list (string * A)) : option A :=
  match l with [] => None | (k', v) :: t => if String.eqb k k' then Some v else assoc_s k t end.
Fixpoint assoc_z {A} (k : Z) (l : list (Z * A)) : option A :=
  match l with [] => None | (k', v) :: t => if k =? k' then Some v else assoc_z k t end.

(** is_valid_protocol, ProtocolNameResolver.py:59-61. *)
Definition is_valid_protocol (n : Z) : bool := (n >=? 0) && (n <=? 255).
(** get_protocol_name, ProtocolNameResolver.py:67-78 ([None]: exception). *)
Definition get_protocol_name (n : Z) : option string :=
  if negb (is_valid_protocol n) then None
  else match assoc_z n number_to_name with Some s => Some s | None => Some (str_of_Z n) end.
(** A protocol argument (Union[int, str]). *)
Inductive protocol := ProtoNum (n : Z) | ProtoName (s : string).
(** get_protocol_number, ProtocolNameResolver.py:80-96 ([None]: ValueError of [int] or the
    explicit exception). *)
Definition get_protocol_number (p : protocol) : option Z :=
  match p with
  | ProtoNum n => Some n
  | ProtoName s =>
    match assoc_s s name_to_number with
    | Some n => Some n
    | None => match Z_of_str s with
              | Some n => if negb (is_valid_protocol n) then None else Some n
              | None => None
              end
    end
  end.
(** is_standard_protocol, ProtocolNameResolver.py:98-105. *)
Definition is_standard_protocol (n : Z) : bool :=
  match assoc_z n number_to_name with Some _ => true | None => false end.

(** ** ProtocolSet.py *)
Definition whole_protocols : iset := get_interval_set 0 255.
(** ProtocolSet.__init__, ProtocolSet.py:19-25. *)
Definition pr_new (all_protocols : bool) : iset := if all_protocols then whole_protocols else [].
(** __contains__, ProtocolSet.py:39-44. *)
Definition pr_contains (l : iset) (p : protocol) : option bool :=
  bind (get_protocol_number p) (fun n => iset_contains l n).
(** add_protocol, ProtocolSet.py:46-59. *)
Definition pr_add (l : iset) (p : protocol) : option iset :=
  bind (get_protocol_number p) (fun n =>
    if negb (is_valid_protocol n) then None else add_interval l (Ivl n n)).
(** remove_protocol, ProtocolSet.py:61-74. *)
Definition pr_remove (l : iset) (p : protocol) : option iset :=
  bind (get_protocol_number p) (fun n =>
    if negb (is_valid_protocol n) then None else Some (add_hole l (Ivl n n))).
(** set_protocols, ProtocolSet.py:76-82 (adds the given intervals one by one). *)
Definition pr_set (l m : iset) : option iset := iset_or l m.
(** is_whole_range, ProtocolSet.py:99-103. *)
Definition pr_is_whole (l : iset) : bool := iset_eqb l whole_protocols.

(** Python [range(a, b + 1)]. *)
Definition zrange (a b : Z) : list Z := map (fun k => a + Z.of_nat k) (seq 0 (Z.to_nat (b - a + 1))).

Fixpoint mapM {A B} (f : A -> option B) (l : list A) : option (list B) :=
  match l with
  | [] => Some []
  | x :: t => bind (f x) (fun y => bind (mapM f t) (fun r => Some (y :: r)))
  end.

(** get_protocol_names_from_interval_set, ProtocolSet.py:105-118 (failed assert: [None]). *)
Definition pr_names (l : iset) : option (list string) :=
  bind (mapM (fun i => if negb ((lo i >=? 0) && (hi i <=? 255)) then None
                       else mapM (fun n => bind (get_protocol_name n) (fun s =>
                              Some (if negb (String.eqb s "") then s else str_of_Z n))) (zrange (lo i) (hi i))) l)
       (fun ls => Some (List.concat ls)).
(** _get_compl_protocol_names_from_interval_set, ProtocolSet.py:120-128. *)
Definition pr_compl_names (l : iset) : option (list string) := pr_names (iset_sub whole_protocols l).
(** __str__, ProtocolSet.py:130-145. *)
Definition pr_str (l : iset) : option string :=
  if pr_is_whole l then Some "*"
  else if negb (iset_bool l) then Some "Empty"
  else bind (pr_names l) (fun ns => bind (pr_compl_names l) (fun cs =>
         Some (if Nat.leb (List.length ns) (List.length cs) then join ", " ns
               else "all but " ++ join ", " cs))).
(** protocol_supports_ports, protocol_is_icmp, ProtocolSet.py:154-176. *)
Definition protocol_supports_ports (p : protocol) : option bool :=
  bind (get_protocol_number p) (fun n => Some ((n =? 6) || (n =? 17) || (n =? 132))).
Definition protocol_is_icmp (p : protocol) : option bool :=
  bind (get_protocol_number p) (fun n => Some ((n =? 1) || (n =? 58))).

(** ** MethodSet.py *)
(** all_methods_list, MethodSet.py:14. *)
Definition all_methods : list string :=
  ["GET"; "HEAD"; "POST"; "PUT"; "DELETE"; "CONNECT"; "OPTIONS"; "TRACE"; "PATCH"].
Definition whole_methods : iset := get_interval_set 0 8.
Fixpoint index_of (s : string) (l : list string) : option Z :=
  match l with
  | [] => None
  | x :: t => if String.eqb s x then Some 0 else option_map Z.succ (index_of s t)
  end.
(** add_method, MethodSet.py:24-31 ([None]: ValueError). *)
Definition m_add (l : iset) (method : string) : option iset :=
  bind (index_of method all_methods) (fun i => add_interval l (Ivl i i)).
(** add_methods_from_regex, MethodSet.py:33-40; [re.match(regex, .)] is the argument [matches]. *)
Definition m_add_regex (l : iset) (matches : string -> bool) : option iset :=
  fold_left (fun acc im => bind acc (fun r =>
               if matches (snd im) then add_interval r (Ivl (fst im) (fst im)) else Some r))
            (combine (zrange 0 8) all_methods) (Some l).
(** _get_method_names_from_interval_set, MethodSet.py:71-83. *)
Definition m_names (l : iset) : option (list string) :=
  bind (mapM (fun i => if negb ((lo i >=? 0) && (hi i <? 9)) then None
                       else mapM (fun n => py_nth all_methods n) (zrange (lo i) (hi i))) l)
       (fun ls => Some (List.concat ls)).
(** Python [list.remove(x)] ([None]: ValueError). *)
Fixpoint list_remove (x : string) (l : list string) : option (list string) :=
  match l with
  | [] => None
  | y :: t => if String.eqb x y then Some t else option_map (cons y) (list_remove x t)
  end.
(** _get_compl_method_names_from_interval_set, MethodSet.py:85-95. *)
Definition m_compl_names (l : iset) : option (list string) :=
  bind (m_names l) (fun ns => fold_left (fun acc m => bind acc (list_remove m)) ns (Some all_methods)).
(** __str__, MethodSet.py:97-112. *)
Definition m_str (l : iset) : option string :=
  if iset_eqb l whole_methods then Some "*"
  else if negb (iset_bool l) then Some "Empty"
  else bind (m_names l) (fun ns => bind (m_compl_names l) (fun cs =>
         Some (if Nat.leb (List.length ns) (List.length cs) then join ", " ns
               else "all but " ++ join ", " cs))).
