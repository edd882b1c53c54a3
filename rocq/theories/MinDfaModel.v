(** * Model of nca/CoreDS/MinDFA.py and of the texts of its objects in nca/CoreDS/DimensionsManager.py.

    The automata library (greenery.fsm) is a record of operations ([fsm_lib]); everything MinDFA adds to it is modelled: the objects with their
    identity ([heap], an object is named by its place), the flag [is_all_words], the link [complement_dfa], the text [regex_expr], and the
    caches that functools.lru_cache(maxsize=500) puts around the methods.

    Simplifications: [__hash__] is not modelled (it is made of the parts that [__eq__] compares, MinDFA.py:151-152, so that a dict finds the keys that
    are equal); the counters of the caches are left out; a word is a Coq string. *)
From Coq Require Import List Bool Arith String Ascii.
From Verif Require Import TextModel.
Import ListNotations.
Local Open Scope string_scope.
Local Open Scope list_scope.
Local Open Scope nat_scope.

(** ** The library *)
(** The operations of greenery.fsm.Fsm that MinDFA.py calls, and greenery.parse(s).to_fsm(None).
    [accepts]: [string in fsm]; [same]: states, initial, finals and map are equal (MinDFA.py:89-90); [size]: [len(fsm)], where [None] is
    OverflowError; [nth_string]: the n-th text that [fsm.strings()] yields; [parse]: [None] is an exception of the parser. *)
Record fsm_lib := mklib {
  fsm : Type;
  accepts : fsm -> string -> bool;
  same : fsm -> fsm -> bool;
  f_or : fsm -> fsm -> fsm;
  f_and : fsm -> fsm -> fsm;
  f_sub : fsm -> fsm -> fsm;
  is_subset : fsm -> fsm -> bool;
  is_empty : fsm -> bool;
  size : fsm -> option nat;
  nth_string : fsm -> nat -> option string;
  parse : string -> option fsm }.

(** MinDFA.Ternary, MinDFA.py:48-51. *)
Inductive ternary := T_FALSE | T_TRUE | T_UNKNOWN.
Definition is_true (t : ternary) : bool := match t with T_TRUE => true | _ => false end.
Definition is_false (t : ternary) : bool := match t with T_FALSE => true | _ => false end.

(** MinDFA.default_alphabet_regex, MinDFA.py:46. *)
Definition default_regex : string := "[.\w/\-]*".

(** str.replace(old, new) for a non-empty [old]: the occurrences from the left that do not overlap. *)
Fixpoint replace_from (skip : nat) (old new s : string) : string :=
  match s with
  | EmptyString => ""
  | String c r =>
    match skip with
    | S k => replace_from k old new r
    | 0 => if String.prefix old s then (new ++ replace_from (String.length old - 1) old new r)%string else String c (replace_from 0 old new r)
    end
  end.
Definition py_replace (old new s : string) : string := replace_from 0 old new s.

(** ** functools.lru_cache(maxsize=500): the entries, the one used last first *)
Definition maxsize : nat := 500.
(** A call whose arguments are equal to those of an entry gives the result of the entry and moves it to the front. *)
Fixpoint lru_find {K V} (eqk : K -> K -> bool) (k : K) (c : list (K * V)) : option (K * V * list (K * V)) :=
  match c with
  | [] => None
  | (k', v) :: t => if eqk k k' then Some (k', v, t) else match lru_find eqk k t with Some (e, r) => Some (e, (k', v) :: r) | None => None end
  end.
(** The result of another call is put in front; the entry not used for the longest time is dropped when there are more than [maxsize]. *)
Definition lru_add {K V} (k : K) (v : V) (c : list (K * V)) : list (K * V) := firstn maxsize ((k, v) :: c).

Section MinDfa.
Variable L : fsm_lib.
Local Notation fsm := (fsm L).

(** ** Objects *)
(** The members set by __init__, MinDFA.py:53-71. *)
Record obj := mkobj { o_fsm : fsm; o_all : ternary; o_comp : option nat; o_text : string }.
(** The objects made so far and the caches of dfa_from_regex, __or__, __and__, __sub__, __str__ and rep. *)
Record world := mkworld {
  heap : list obj;
  c_regex : list (string * nat);
  c_or : list ((nat * nat) * nat);
  c_and : list ((nat * nat) * nat);
  c_sub : list ((nat * nat) * nat);
  c_str : list (nat * string);
  c_rep : list (nat * option string) }.
Definition start : world := mkworld [] [] [] [] [] [] [].

Definition get (w : world) (a : nat) : option obj := nth_error (heap w) a.
Definition with_heap (w : world) (h : list obj) : world := mkworld h (c_regex w) (c_or w) (c_and w) (c_sub w) (c_str w) (c_rep w).
Definition with_regex (w : world) c := mkworld (heap w) c (c_or w) (c_and w) (c_sub w) (c_str w) (c_rep w).
Definition with_or (w : world) c := mkworld (heap w) (c_regex w) c (c_and w) (c_sub w) (c_str w) (c_rep w).
Definition with_and (w : world) c := mkworld (heap w) (c_regex w) (c_or w) c (c_sub w) (c_str w) (c_rep w).
Definition with_sub (w : world) c := mkworld (heap w) (c_regex w) (c_or w) (c_and w) c (c_str w) (c_rep w).
Definition with_str (w : world) c := mkworld (heap w) (c_regex w) (c_or w) (c_and w) (c_sub w) c (c_rep w).
Definition with_rep (w : world) c := mkworld (heap w) (c_regex w) (c_or w) (c_and w) (c_sub w) (c_str w) c.

(** A new object. *)
Definition make (w : world) (o : obj) : world * nat := (with_heap w (heap w ++ [o]), List.length (heap w)).
(** An object with members assigned anew. *)
Fixpoint upd (h : list obj) (a : nat) (f : obj -> obj) : list obj :=
  match h, a with
  | [], _ => []
  | o :: t, 0 => f o :: t
  | o :: t, S k => o :: upd t k f
  end.
Definition change (w : world) (a : nat) (f : obj -> obj) : world := with_heap w (upd (heap w) a f).
Definition set_all (t : ternary) (o : obj) : obj := mkobj (o_fsm o) t (o_comp o) (o_text o).
Definition set_comp (c : nat) (o : obj) : obj := mkobj (o_fsm o) (o_all o) (Some c) (o_text o).
Definition set_text (t : string) (o : obj) : obj := mkobj (o_fsm o) (o_all o) (o_comp o) t.

(** __eq__, MinDFA.py:86-91, of two objects of the heap; the keys of a cache are compared by identity first. *)
Definition eq_dfa (w : world) (a b : nat) : bool :=
  (a =? b) || match get w a, get w b with Some x, Some y => same L (o_fsm x) (o_fsm y) | _, _ => false end.
Definition eq_pair (w : world) (p q : nat * nat) : bool := eq_dfa w (fst p) (fst q) && eq_dfa w (snd p) (snd q).

(** has_finite_len, MinDFA.py:168-179, of the flag and the automaton of an object. *)
Definition has_finite (t : ternary) (f : fsm) : bool :=
  if is_true t then false else match size L f with Some _ => true | None => false end.

(** ** Making objects *)
(** dfa_from_regex, MinDFA.py:96-119. *)
Definition from_regex (w : world) (s : string) : option (world * nat) :=
  match lru_find String.eqb s (c_regex w) with
  | Some (e, r) => Some (with_regex w (e :: r), snd e)
  | None =>
    match parse L s with
    | None => None
    | Some f =>
      let o := mkobj f (if has_char "*" s then T_UNKNOWN else T_FALSE) None (py_replace default_regex "*" s) in
      let (w', a) := make w o in Some (with_regex w' (lru_add s a (c_regex w')), a)
    end
  end.
(** dfa_all_words, MinDFA.py:121-131. *)
Definition all_words (w : world) (s : string) : option (world * nat) :=
  match from_regex w s with
  | Some (w', a) => Some (change w' a (fun o => set_text "*" (set_all T_TRUE o)), a)
  | None => None
  end.
(** DimensionsManager._get_dfa_path_domain, DimensionsManager.py:89-98, for the expression [s] (there: a slash and the default one). *)
Definition path_words (w : world) (s : string) : option (world * nat) :=
  match from_regex w s with
  | Some (w', a) => Some (change w' a (set_all T_TRUE), a)
  | None => None
  end.

(** ** Questions *)
(** __bool__, MinDFA.py:206-207. *)
Definition nonempty (w : world) (a : nat) : option bool := option_map (fun o => negb (is_empty L (o_fsm o))) (get w a).
(** has_finite_len, MinDFA.py:168-179. *)
Definition finite_len (w : world) (a : nat) : option bool := option_map (fun o => has_finite (o_all o) (o_fsm o)) (get w a).
(** is_dfa_wll_words, MinDFA.py:134-145. *)
Definition is_all (w : world) (a d : nat) : option bool :=
  match get w a, get w d with
  | Some o, Some x =>
    Some (if is_true (o_all o) then true else if is_false (o_all o) then false
          else negb (has_finite (o_all o) (o_fsm o)) && same L (o_fsm o) (o_fsm x))
  | _, _ => None
  end.
(** contained_in, MinDFA.py:209-220. *)
Definition contained (w : world) (a b : nat) : option bool :=
  match get w a, get w b with
  | Some x, Some y =>
    Some (if is_true (o_all y) then true else if is_true (o_all x) && is_false (o_all y) then false else is_subset L (o_fsm x) (o_fsm y))
  | _, _ => None
  end.

(** ** Operators *)
(** The expression of a result, MinDFA.py:233-237, 250-254 and 265. *)
Definition op_text (op : string) (t u : string) : string := ("(" ++ t ++ op ++ u ++ ")")%string.
Definition or_text (t u : string) : string := if String.eqb t u then t else op_text ")|(" t u.
Definition and_text (t u : string) : string := if String.eqb t u then t else op_text ")&(" t u.
Definition sub_text (t u : string) : string := op_text ")-(" t u.

(** __or__, MinDFA.py:223-238. *)
Definition dfa_or (w : world) (a b : nat) : option (world * nat) :=
  match lru_find (eq_pair w) (a, b) (c_or w) with
  | Some (e, r) => Some (with_or w (e :: r), snd e)
  | None =>
    match get w a, get w b with
    | Some x, Some y =>
      let (w', r) :=
        if is_true (o_all x) then (w, a)
        else if is_true (o_all y) then (w, b)
        else
          let f := f_or L (o_fsm x) (o_fsm y) in
          make w (mkobj f (if has_finite T_UNKNOWN f then T_FALSE else T_UNKNOWN) None (or_text (o_text x) (o_text y))) in
      Some (with_or w' (lru_add (a, b) r (c_or w')), r)
    | _, _ => None
    end
  end.
(** __and__, MinDFA.py:240-255. *)
Definition dfa_and (w : world) (a b : nat) : option (world * nat) :=
  match lru_find (eq_pair w) (a, b) (c_and w) with
  | Some (e, r) => Some (with_and w (e :: r), snd e)
  | None =>
    match get w a, get w b with
    | Some x, Some y =>
      let (w', r) :=
        if is_true (o_all x) then (w, b)
        else if is_true (o_all y) then (w, a)
        else
          let f := f_and L (o_fsm x) (o_fsm y) in
          make w (mkobj f (if is_false (o_all x) || is_false (o_all y) then T_FALSE else T_UNKNOWN) None (and_text (o_text x) (o_text y))) in
      Some (with_and w' (lru_add (a, b) r (c_and w')), r)
    | _, _ => None
    end
  end.
(** The flag that __sub__ gives to a new result, MinDFA.py:267-278. *)
Definition sub_flag (x y : obj) (f : fsm) : ternary :=
  let t1 := if is_true (o_all y) then T_FALSE else if negb (is_empty L (o_fsm y)) then T_FALSE else T_UNKNOWN in
  let t2 := if is_true (o_all x) && is_empty L (o_fsm y) then T_TRUE else t1 in
  if has_finite t2 f then T_FALSE else t2.
(** __sub__, MinDFA.py:257-279. *)
Definition dfa_sub (w : world) (a b : nat) : option (world * nat) :=
  match lru_find (eq_pair w) (a, b) (c_sub w) with
  | Some (e, r) => Some (with_sub w (e :: r), snd e)
  | None =>
    match get w a, get w b with
    | Some x, Some y =>
      let (w', r) :=
        match is_true (o_all x), o_comp y with
        | true, Some c => (w, c)
        | t, _ =>
          let f := f_sub L (o_fsm x) (o_fsm y) in
          let (w1, r) := make w (mkobj f (sub_flag x y f) (if t then Some b else None) (sub_text (o_text x) (o_text y))) in
          (if t then change w1 b (set_comp r) else w1, r)
        end in
      Some (with_sub w' (lru_add (a, b) r (c_sub w')), r)
    | _, _ => None
    end
  end.

(** ** Texts *)
(** _get_strings_set_str, MinDFA.py:154-166; a generator that ends too early is an exception. *)
Definition strings_text (f : fsm) (n : nat) : option string :=
  option_map (join ", ") (fold_right (fun i acc => match nth_string L f i, acc with Some s, Some l => Some (s :: l) | _, _ => None end) (Some []) (seq 0 n)).
(** __str__, MinDFA.py:181-194. *)
Definition dfa_str (w : world) (a : nat) : option (world * string) :=
  match lru_find (eq_dfa w) a (c_str w) with
  | Some (e, r) => Some (with_str w (e :: r), snd e)
  | None =>
    match get w a with
    | Some x =>
      let t := if has_finite (o_all x) (o_fsm x) then match size L (o_fsm x) with Some n => strings_text (o_fsm x) n | None => None end
               else if is_true (o_all x) then Some "*" else Some (o_text x) in
      match t with Some t => Some (with_str w (lru_add a t (c_str w)), t) | None => None end
    | None => None
    end
  end.
(** rep, MinDFA.py:281-291; the inner [None] is NotImplemented. *)
Definition dfa_rep (w : world) (a : nat) : option (world * option string) :=
  match lru_find (eq_dfa w) a (c_rep w) with
  | Some (e, r) => Some (with_rep w (e :: r), snd e)
  | None =>
    match get w a with
    | Some x =>
      if is_empty L (o_fsm x) then Some (with_rep w (lru_add a None (c_rep w)), None)
      else match nth_string L (o_fsm x) 0 with Some s => Some (with_rep w (lru_add a (Some s) (c_rep w)), Some s) | None => None end
    | None => None
    end
  end.
(** get_dim_values_str, DimensionsManager.py:188-213, for a dimension of automata whose domain is the object [d]. *)
Definition values_str (w : world) (d a : nat) : option (world * string) :=
  match get w a, is_all w a d with
  | Some x, Some all =>
    if has_finite (o_all x) (o_fsm x) then dfa_str w a
    else if all then Some (w, "*")
    else
      match (match o_comp x with Some c => Some (w, c) | None => dfa_sub w d a end) with
      | Some (w', c) =>
        match finite_len w' c with
        | Some true => match dfa_str w' c with Some (w2, t) => Some (w2, ("all but " ++ t)%string) | None => None end
        | Some false => dfa_str w' a
        | None => None
        end
      | None => None
      end
  | _, _ => None
  end.

(** ** Histories: the calls that change objects or caches *)
Inductive call :=
  | CRegex (s : string) | CAll (s : string) | CPath (s : string)
  | COr (a b : nat) | CAnd (a b : nat) | CSub (a b : nat)
  | CStr (a : nat) | CRep (a : nat) | CValues (d a : nat).
Definition step (w : world) (c : call) : option world :=
  match c with
  | CRegex s => option_map fst (from_regex w s)
  | CAll s => option_map fst (all_words w s)
  | CPath s => option_map fst (path_words w s)
  | COr a b => option_map fst (dfa_or w a b)
  | CAnd a b => option_map fst (dfa_and w a b)
  | CSub a b => option_map fst (dfa_sub w a b)
  | CStr a => option_map fst (dfa_str w a)
  | CRep a => option_map fst (dfa_rep w a)
  | CValues d a => option_map fst (values_str w d a)
  end.
Fixpoint steps (w : world) (l : list call) : option world :=
  match l with [] => Some w | c :: t => match step w c with Some w' => steps w' t | None => None end end.
End MinDfa.
