(** * Model of the list of differences of two configurations: TwoNetworkConfigsQuery._append_different_conns_to_list,
      nca/NetworkConfig/NetworkConfigQuery.py:986-1009, as called by check_equivalence, lines 1065-1070.

    [reg], [allp]: the peer container of the first configuration.  The final sorting of the list is not modelled (it permutes the entries), and
    an entry has the two sets of peers of which the code keeps texts: all peers if [full] (fullExplanation), otherwise the first peer (PeerSet.rep, Peer.py:627-635). *)
From Coq Require Import ZArith List Bool Arith String Ascii.
From Verif Require Import IntervalModel HyperModel HyperInst ConnModel TextModel PortProtoModel PeerModel ConnAlg StdDims QueryAlg ConnTextModel FWAlg ConnListModel DiffTextModel.
Import ListNotations.
Local Open Scope string_scope.
Local Open Scope list_scope.
Local Open Scope nat_scope.

Section Diffs.
Context (dom : dim -> val) (reg : list peer) (allp : peerset) (word_rep : dim -> Z -> string).
Local Notation O := (val_ops dom).
(** extract_src_dst_peers_from_cube for a cube of the difference, lines 997-999 and ConnectivityProperties.py:468-489.  All protocols are the relevant ones here: unsetting
    them changes nothing, as they are the whole dimension, so this is [split_cube] without a restriction. *)
Definition diff_entry (h : hc val) (k : list val) : option (hc val * peerset * peerset) :=
  let c := cube_at O (act_of h) k in
  bind (peers_of_val reg (c d_src)) (fun s => bind (peers_of_val reg (c d_dst)) (fun d =>
  Some (snd (split_cube dom std_all None c), or_all allp s, or_all allp d))).
(** The entries of one difference: all cubes, or the first one (the return of line 1009). *)
Definition side_entries (full : bool) (h : hc val) : option (list (hc val * peerset * peerset)) :=
  mapM (diff_entry h) (if full then iter_cubes O std_all h else firstn 1 (iter_cubes O std_all h)).
(** The two calls, lines 1065-1069; the flag is props_based_on_config1. *)
Definition diff_list (full : bool) (h1 h2 : hc val) : option (list (bool * (hc val * peerset * peerset))) :=
  bind (side_entries full h1) (fun l1 => bind (side_entries full h2) (fun l2 => Some (map (pair true) l1 ++ map (pair false) l2))).
(** conns1 and conns2 of an entry, lines 995-1001: the other side is the fresh empty properties. *)
Definition entry_conns (first : bool) (x : hc val) : hc val * hc val := let no := hempty Conn std_all in (if first then x else no, if first then no else x).
(** conns1.print_diff(conns2, …), QueryOutputHandler.py:287-291. *)
Definition entry_diff (n1 n2 : string) (first : bool) (x : hc val) : option string :=
  print_diff dom word_rep std_all (fst (entry_conns first x)) (snd (entry_conns first x)) n1 n2.
End Diffs.
