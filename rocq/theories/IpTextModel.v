(** * Model of the texts of IP blocks: IpBlock.get_cidr_list, get_cidr_list_str, get_ip_range_or_cidr_str (nca/CoreDS/Peer.py:308-331) and
      CanonicalIntervalSet.__repr__ (nca/CoreDS/CanonicalIntervalSet.py:38-47), which is also str of an IpBlock.

    The code calls Python's ipaddress module for the text of an address and for summarize_address_range; both are modelled from the sources of that
    module (Lib/ipaddress.py of Python 3.8 to 3.12).  Addresses are positions as in PeerModel.v. *)
From Coq Require Import ZArith List Bool Arith String Ascii.
From Verif Require Import IntervalModel TextModel PortProtoModel PeerModel.
Import ListNotations.
Local Open Scope string_scope.
Local Open Scope list_scope.
Local Open Scope nat_scope.

(** The digits of a number, the most significant first. *)
Fixpoint digits (B : Z) (k : nat) (n : Z) : list Z := match k with O => [] | S k' => digits B k' (n / B)%Z ++ [(n mod B)%Z] end.
(** IPv4Address._string_from_ip_int: the bytes. *)
Definition text4 (n : Z) : string := join "." (map str_of_Z (digits 256 4 n)).
(** The format %x of a number below 65536. *)
Definition hex_char (n : Z) : ascii := nth (Z.to_nat n) ["0"; "1"; "2"; "3"; "4"; "5"; "6"; "7"; "8"; "9"; "a"; "b"; "c"; "d"; "e"; "f"]%char "0"%char.
Fixpoint strip0 (l : list Z) : list Z := match l with [] => [] | [x] => [x] | x :: t => if (x =? 0)%Z then strip0 t else l end.
Definition hex (n : Z) : string := fold_right (fun d s => String (hex_char d) s) "" (strip0 (digits 16 4 n)).
(** _compress_hextets: the first longest run of "0", as (start, length); the state of the loop is the best run and the current one. *)
Definition run_step (st : (nat * nat) * option (nat * nat)) (ih : nat * string) : (nat * nat) * option (nat * nat) :=
  match st with (best, cur) =>
    if String.eqb (snd ih) "0" then
      let c := match cur with None => (fst ih, 1) | Some (s, n) => (s, S n) end in
      ((if snd best <? snd c then c else best), Some c)
    else (best, None)
  end.
Definition best_run (hs : list string) : nat * nat := fst (fold_left run_step (combine (seq 0 (List.length hs)) hs) ((0, 0), None)).
Definition compress (hs : list string) : list string :=
  match best_run hs with (start, len) =>
    if 1 <? len then
      let hs' := if start + len =? List.length hs then hs ++ [""] else hs in
      let r := firstn start hs' ++ [""] ++ skipn (start + len) hs' in
      if start =? 0 then "" :: r else r
    else hs
  end.
(** IPv6Address._string_from_ip_int. *)
Definition text6 (n : Z) : string := join ":" (compress (map hex (digits 65536 8 n))).
(** str of an address. *)
Definition ip_text (y : Z) : string := if (y <=? v4max)%Z then text4 y else text6 (y - v6min)%Z.

(** CanonicalIntervalSet.__repr__, CanonicalIntervalSet.py:38-47. *)
Definition range_text (i : ivl) : string := if (lo i =? hi i)%Z then ip_text (lo i) else (ip_text (lo i) ++ "-" ++ ip_text (hi i))%string.
Definition ranges_text (l : iset) : string := match l with [] => "Empty" | _ => join "," (map range_text l) end.

(** ipaddress._count_righthand_zero_bits. *)
Fixpoint zeros (p : positive) : Z := match p with xO q => (1 + zeros q)%Z | _ => 0%Z end.
Definition right_zeros (n bits : Z) : Z := match n with Zpos p => Z.min bits (zeros p) | _ => bits end.
(** ipaddress.summarize_address_range: (first address, prefix length) of each network.  The loop gets [fuel]; [None] if it is not enough
    (IpTextFacts shows that it always is).  bit_length() - 1 is log2. *)
Fixpoint summarize (fuel : nat) (bits first last : Z) : option (list (Z * Z)) :=
  if (last <? first)%Z then Some []
  else match fuel with
       | O => None
       | S f => let nbits := Z.min (right_zeros first bits) (Z.log2 (last - first + 1)) in
                bind (summarize f bits (first + 2 ^ nbits)%Z last) (fun r => Some ((first, bits - nbits)%Z :: r))
       end.
(** get_cidr_list, Peer.py:308-315. *)
Definition range_cidrs (i : ivl) : option (list string) :=
  let six := negb (lo i <=? v4max)%Z in
  let off := if six then v6min else 0%Z in
  bind (summarize 300 (width six) (lo i - off)%Z (hi i - off)%Z) (fun l =>
  Some (map (fun c => (ip_text (fst c + off)%Z ++ "/" ++ str_of_Z (snd c))%string) l)).
Definition cidr_list (l : iset) : option (list string) := bind (mapM range_cidrs l) (fun r => Some (List.concat r)).
(** get_cidr_list_str, Peer.py:317-319. *)
Definition cidr_list_str (l : iset) : option string := bind (cidr_list l) (fun r => Some (join "," r)).
(** get_ip_range_or_cidr_str, Peer.py:321-331. *)
Definition range_or_cidr_str (range_only : bool) (l : iset) : option string :=
  bind (cidr_list l) (fun r =>
  if (List.length l * 2 <=? List.length r) || range_only then Some (ranges_text l) else Some (join "," r)).
