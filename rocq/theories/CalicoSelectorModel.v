(** * Model of the label selectors of nca/Parsers/CalicoPolicyYamlParser.py (text -> peers).

    Texts are lists of 8-bit characters.  Regular expressions are used with [match] (a prefix of the text); the greedy
    [+] of the key is modelled by trying its prefixes, longest first; the other repetitions never need to give back
    what they took, because the next thing to match is not in the repeated class. *)
From Coq Require Import ZArith List Bool Arith String Ascii.
From Verif Require Import IntervalModel TextModel PortProtoModel PeerModel PolicyModel YamlModel ClusterModel.
Import ListNotations.
Local Open Scope char_scope.
Local Open Scope list_scope.
Local Open Scope nat_scope.

(** [text s]: a literal; [untext]: back to a string. *)
Definition text (s : string) : list ascii := chars s.
Fixpoint untext (l : list ascii) : string := match l with [] => EmptyString | c :: t => String c (untext t) end.

(** str.isspace for one character. *)
Definition is_space (c : ascii) : bool :=
  let n := nat_of_ascii c in
  (Nat.leb 9 n && Nat.leb n 13) || (Nat.leb 28 n && Nat.leb n 32) || Nat.eqb n 133 || Nat.eqb n 160.
(** str.strip. *)
Fixpoint lstrip (l : list ascii) : list ascii :=
  match l with c :: t => if is_space c then lstrip t else l | [] => [] end.
Definition strip (l : list ascii) : list ascii := rev (lstrip (rev (lstrip l))).
(** str.split() without arguments; [cur] is the word being read, reversed. *)
Fixpoint words (cur : list ascii) (l : list ascii) : list (list ascii) :=
  match l with
  | [] => match cur with [] => [] | _ => [rev cur] end
  | c :: t => if is_space c then match cur with [] => words [] t | _ => rev cur :: words [] t end
              else words (c :: cur) t
  end.
Fixpoint joinl (sep : list ascii) (l : list (list ascii)) : list ascii :=
  match l with
  | [] => []
  | [x] => x
  | x :: t => x ++ sep ++ joinl sep t
  end.
(** [' '.join(expr.split())], CalicoPolicyYamlParser.py:48. *)
Definition squeeze (l : list ascii) : list ascii := joinl [" "] (words [] l).

Definition count (c : ascii) (l : list ascii) : nat := count_occ ascii_dec l c.
Fixpoint starts (w l : list ascii) : bool :=
  match w, l with
  | [], _ => true
  | a :: w', b :: l' => Ascii.eqb a b && starts w' l'
  | _, _ => false
  end.
Fixpoint occurs (w l : list ascii) : bool :=
  starts w l || match l with [] => false | _ :: t => occurs w t end.

(** ** Atomic expressions: _parse_selector_expr, CalicoPolicyYamlParser.py:37-108 *)
(** [\w.\-/]; of the letters outside ASCII that \w accepts none is modelled. *)
Definition key_char (c : ascii) : bool := alnum c || Ascii.eqb c "_" || Ascii.eqb c "." || Ascii.eqb c "-" || Ascii.eqb c "/".
Fixpoint span (l : list ascii) : list ascii * list ascii :=
  match l with
  | c :: t => if key_char c then let (a, b) := span t in (c :: a, b) else ([], l)
  | [] => ([], [])
  end.
(** A literal. *)
Fixpoint lit (w l : list ascii) : option (list ascii) :=
  match w, l with
  | [], _ => Some l
  | a :: w', b :: l' => if Ascii.eqb a b then lit w' l' else None
  | _, _ => None
  end.
(** [\s?] and [\s] (the text has no other white space than single blanks). *)
Definition osp (l : list ascii) : list ascii := match l with c :: t => if Ascii.eqb c " " then t else l | [] => [] end.
(** ['([\w.\-/]+)'] *)
Definition quoted (l : list ascii) : option (list ascii * list ascii) :=
  bind (lit ["'"] l) (fun r => let (v, r') := span r in
  match v with [] => None | _ => bind (lit ["'"] r') (fun r'' => Some (v, r'')) end).
(** [([\w.\-/]+)] followed by [k]: the prefixes of the run [a], longest first. *)
Fixpoint prefixes {X} (a : list ascii) (n : nat) (rest : list ascii) (k : list ascii -> list ascii -> option X) : option X :=
  match n with
  | 0 => None
  | S n' => match k (firstn n a) (skipn n a ++ rest) with
            | Some x => Some x
            | None => prefixes a n' rest k
            end
  end.
Definition with_key {X} (l : list ascii) (k : list ascii -> list ascii -> option X) : option X :=
  let (a, r) := span l in prefixes a (List.length a) r k.
(** has_re, line 58. *)
Definition has_re (l : list ascii) : option (list ascii) :=
  bind (lit (text "has(") l) (fun r => let (k, r') := span r in
  match k with [] => None | _ => bind (lit [")"] r') (fun _ => Some k) end).
(** key_val_re, line 69: key, whether the operator is ==, value. *)
Definition key_val_re (l : list ascii) : option (list ascii * bool * list ascii) :=
  with_key l (fun k r =>
    match osp r with
    | c :: r' => if Ascii.eqb c "=" || Ascii.eqb c "!" then
                   bind (lit ["="] r') (fun r'' => bind (quoted (osp r'')) (fun vr => Some (k, Ascii.eqb c "=", fst vr)))
                 else None
    | [] => None
    end).
(** The rest of in_re after the first value: (,\s?'[\w.\-/]+'\s?)*} *)
Fixpoint more_values (fuel : nat) (l : list ascii) : option unit :=
  match fuel with
  | 0 => None
  | S f => match l with
           | c :: r => if Ascii.eqb c "}" then Some tt
                       else if Ascii.eqb c "," then bind (quoted (osp r)) (fun vr => more_values f (osp (snd vr)))
                       else None
           | [] => None
           end
  end.
(** in_re, line 82: key and whether 'not' is missing. *)
Definition in_re (l : list ascii) : option (list ascii * bool) :=
  with_key l (fun k r =>
    bind (lit [" "] r) (fun r0 =>
    let after r1 := bind (lit (text "in") r1) (fun r2 => bind (lit ["{"] (osp r2)) (fun r3 =>
                    bind (quoted (osp r3)) (fun vr => more_values (S (List.length (snd vr))) (osp (snd vr))))) in
    match bind (lit (text "not ") r0) after with
    | Some _ => Some (k, false)
    | None => bind (after r0) (fun _ => Some (k, true))
    end)).
(** re.findall of a quoted run of such characters, which can be empty, line 87. *)
Fixpoint find_values (fuel : nat) (l : list ascii) : list (list ascii) :=
  match fuel with
  | 0 => []
  | S f => match l with
           | [] => []
           | c :: t => if Ascii.eqb c "'" then
                         let (v, r) := span t in
                         match lit ["'"] r with Some r' => v :: find_values f r' | None => find_values f t end
                       else find_values f t
           end
  end.
(** str_re, line 95. *)
Definition str_re (l : list ascii) : option (list ascii * faction * list ascii) :=
  with_key l (fun k r =>
    let r0 := osp r in
    let after a o := bind o (fun r1 => bind (quoted (osp r1)) (fun vr => Some (k, a, fst vr))) in
    match after FContain (lit (text "contains") r0) with
    | Some x => Some x
    | None => match after FStartWith (lit (text "starts with") r0) with
              | Some x => Some x
              | None => after FEndWith (lit (text "ends with") r0)
              end
    end).

Section Selectors.
Context (cl : cluster).
(** get_all_peers_group(include_globals=g), PeerContainer.py:302-319.  The global peers are the host endpoints
    (is_global_peer, Peer.py:51-52, 189-190, 294-295; a cluster of the model has no network sets). *)
Definition group_of (g : bool) : peerset := select cl (fun p => negb (is_dns p) && (g || negb (is_hep p))).
(** get_all_global_peers, PeerContainer.py:328-337. *)
Definition globals : peerset := select cl is_hep.

(** _parse_selector_expr, CalicoPolicyYamlParser.py:37-108. *)
Definition parse_atom (ns : option string) (for_ns : bool) (l : list ascii) : option peerset :=
  let e := squeeze (strip l) in
  if for_ns && (if list_eq_dec ascii_dec e (text "global()") then true else false) then Some globals
  else
    let all := if for_ns then group_of false else namespace_pods cl ns in
    let by_label k vs a := ps_inter all (if for_ns then ns_pods_with_label cl (untext k) (map untext vs) a
                                         else peers_with_label cl (untext k) (map untext vs) a None) in
    if list_eq_dec ascii_dec e (text "all()") then Some all
    else match has_re e with
    | Some k => ps_inter all (if for_ns then ns_pods_with_key cl (untext k) false else peers_with_key cl ns (untext k) false)
    | None =>
      match key_val_re e with
      | Some (k, eq, v) => by_label k [v] (if eq then FIn else FNotIn)
      | None =>
        match in_re e with
        | Some (k, no_not) => by_label k (find_values (S (List.length e)) e) (if no_not then FIn else FNotIn)
        | None =>
          match str_re e with
          | Some (k, a, v) => by_label k [v] a
          | None => None
          end
        end
      end
    end.

(** The bracket counter of _strip_selector, lines 122-130: whether it is 0 after some character. *)
Fixpoint closes (n : Z) (l : list ascii) : bool :=
  match l with
  | [] => false
  | c :: t => let n' := if Ascii.eqb c "(" then (n + 1)%Z else if Ascii.eqb c ")" then (n - 1)%Z else n in
              (n' =? 0)%Z || closes n' t
  end.
(** The while loop of _strip_selector, lines 121-134; every round removes two characters, so [length l] rounds are
    enough. *)
Fixpoint unbracket (fuel : nat) (l : list ascii) : list ascii :=
  match fuel with
  | 0 => l
  | S f => match l with
           | c :: t => if Ascii.eqb c "(" && Ascii.eqb (last l " ") ")" && negb (closes 0 (removelast l))
                       then unbracket f (strip (removelast t)) else l
           | [] => l
           end
  end.
(** _strip_selector, CalicoPolicyYamlParser.py:110-135. *)
Definition strip_selector (l : list ascii) : option (list ascii) :=
  let e := strip l in
  if Nat.eqb (count "(" e) (count ")" e) then Some (unbracket (List.length e) e) else None.

(** str.split with an operator of two equal characters. *)
Fixpoint split2 (c : ascii) (l : list ascii) : list (list ascii) :=
  match l with
  | [] => [[]]
  | a :: t =>
    match t with
    | b :: t' => if Ascii.eqb a c && Ascii.eqb b c then [] :: split2 c t'
                 else match split2 c t with x :: r => (a :: x) :: r | [] => [[a]] end
    | [] => [[a]]
    end
  end.
Fixpoint merge (op cur : list ascii) (l : list (list ascii)) : list (list ascii) :=
  match l with
  | [] => []
  | e :: t => let cur' := cur ++ e in
              if Nat.eqb (count "(" cur') (count ")" cur') then cur' :: merge op [] t else merge op (cur' ++ op) t
  end.
(** _split_selector, CalicoPolicyYamlParser.py:137-157. *)
Definition split_selector (c : ascii) (l : list ascii) : list (list ascii) := merge [c; c] [] (split2 c l).

(** _recursive_parse_label_selector, CalicoPolicyYamlParser.py:159-206.  Every recursive call is on a shorter text;
    running out of fuel is an error. *)
Fixpoint parse_selector (fuel : nat) (ns : option string) (for_ns : bool) (l : list ascii) : option peerset :=
  match fuel with
  | 0 => None
  | S f =>
    let g := negb for_ns || occurs (text "global()") l in
    bind (strip_selector l) (fun e =>
    match split_selector "|" e with
    | [_] =>
      match split_selector "&" e with
      | [x] =>
        match e with
        | [] => None          (* IndexError, line 197 *)
        | c :: t =>
          if Ascii.eqb c "!" then
            bind (parse_selector f ns for_ns t) (fun s => ps_diff (if for_ns then group_of g else namespace_pods cl ns) s)
          else parse_atom ns for_ns x
        end
      | es => fold_left (fun acc x => bind acc (fun r => bind (parse_selector f ns for_ns x) (fun s => ps_inter r s))) es
                        (Some (group_of g))
      end
    | es => fold_left (fun acc x => bind acc (fun r => bind (parse_selector f ns for_ns x) (fun s => Some (ps_union r s)))) es
                      (Some [])
    end)
  end.
(** _parse_label_selector, CalicoPolicyYamlParser.py:208-232. *)
Definition calico_selector (ns : option string) (for_ns : bool) (y : yaml) : option peerset :=
  match y with
  | YStr s => if forallb is_space (text s) then None       (* missing, empty or white space *)
              else parse_selector (S (String.length s)) ns for_ns (text s)
  | _ => None
  end.
End Selectors.
