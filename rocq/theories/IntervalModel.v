(** * Model of nca/CoreDS/CanonicalIntervalSet.py

    The Python class stores [interval_set], a list of objects with fields
    [start] and [end].  Bounds are of "any type that supports equality and lt
    as well as +1 and -1" (lines 133-137): plain ints for ports, protocols,
    peer indices, ...; [IPNetworkAddress] (saturating +1/-1) for IP blocks.
    Both are covered: bounds are [Z], and the operations [+1] / [-1] are the
    section parameters [inc] / [dec].  Mutating methods return the new list.
    A Python IndexError, or a loop that would not terminate, is [None]. *)
From Coq Require Import ZArith List Bool Lia.
Import ListNotations.
Open Scope Z_scope.

(** CanonicalIntervalSet.Interval, CanonicalIntervalSet.py:133-141. *)
Record ivl := Ivl { lo : Z; hi : Z }.

(** The list [interval_set], CanonicalIntervalSet.py:15-16. *)
Definition iset := list ivl.

(** Interval.__eq__, CanonicalIntervalSet.py:143-144. *)
Definition ivl_eqb (a b : ivl) : bool := (lo a =? lo b) && (hi a =? hi b).

(** Interval.__contains__, CanonicalIntervalSet.py:152-153. *)
Definition ivl_contains (a : ivl) (x : Z) : bool := (lo a <=? x) && (x <=? hi a).

(** Interval.__and__, CanonicalIntervalSet.py:158-163. *)
Definition ivl_and (a b : ivl) : list ivl :=
  let max_start := Z.max (lo a) (lo b) in
  let min_end := Z.min (hi a) (hi b) in
  if min_end <? max_start then [] else [Ivl max_start min_end].

(** Interval.overlaps, CanonicalIntervalSet.py:195-201. *)
Definition ivl_overlaps (a b : ivl) : bool := (hi b >=? lo a) && (lo b <=? hi a).

(** Interval.is_subset, CanonicalIntervalSet.py:215-221. *)
Definition ivl_is_subset (a b : ivl) : bool := (lo b <=? lo a) && (hi b >=? hi a).

(** Interval.is_single_value, CanonicalIntervalSet.py:223-227. *)
Definition ivl_is_single_value (a : ivl) : bool := lo a =? hi a.

(** Python list indexing [l[i]], including negative indices; [None] is IndexError. *)
Definition py_nth {A} (l : list A) (i : Z) : option A :=
  let n := Z.of_nat (length l) in
  let j := if i <? 0 then i + n else i in
  if (j <? 0) || (n <=? j) then None else nth_error l (Z.to_nat j).

Section Arith.
Variables inc dec : Z -> Z.

(** Interval.touches, CanonicalIntervalSet.py:203-213. *)
Definition g_touches (a b : ivl) : bool :=
  if lo a >? hi b then lo a =? inc (hi b)
  else if lo b >? hi a then lo b =? inc (hi a)
  else false.

(** Interval.__or__, CanonicalIntervalSet.py:165-174. *)
Definition g_ivl_or (a b : ivl) : list ivl :=
  if ivl_is_subset a b then [b]
  else if ivl_is_subset b a then [a]
  else if ivl_overlaps a b || g_touches a b
       then [Ivl (Z.min (lo a) (lo b)) (Z.max (hi a) (hi b))]
       else [a; b].

(** Interval.__sub__, CanonicalIntervalSet.py:176-186. *)
Definition g_ivl_sub (a b : ivl) : list ivl :=
  if negb (ivl_overlaps a b) then [a]
  else if ivl_is_subset a b then []
  else if (lo a <? lo b) && (hi a >? hi b) then
    [Ivl (lo a) (dec (lo b)); Ivl (inc (hi b)) (hi a)]
  else if lo a <? lo b then [Ivl (lo a) (Z.min (hi a) (dec (lo b)))]
  else [Ivl (Z.max (lo a) (inc (hi b))) (hi a)].

(** find_interval_left: the [while] loop, CanonicalIntervalSet.py:241-253.
    [s] is [interval.start].  Indices are naturals inside the loop, the result
    is an index or -1. *)
Fixpoint g_fil_loop (fuel : nat) (l : iset) (s : Z) (low high : nat) : option Z :=
  match fuel with
  | O => None
  | S f =>
    if Nat.eqb low high then
      let low' := if Nat.eqb low (length l) then (low - 1)%nat else low in
      match nth_error l low' with
      | None => None
      | Some i => if hi i >=? dec s then Some (-1) else Some (Z.of_nat low')
      end
    else
      let mid := Nat.div2 (low + high) in
      match nth_error l mid with
      | None => None
      | Some im =>
        if hi im <? dec s then
          if Nat.eqb mid (length l - 1) then Some (Z.of_nat mid)
          else match nth_error l (S mid) with
               | None => None
               | Some inx => if hi inx >=? dec s then Some (Z.of_nat mid)
                             else g_fil_loop f l s (S mid) high
               end
        else g_fil_loop f l s low mid
      end
  end.

(** find_interval_left, CanonicalIntervalSet.py:229-253. *)
Definition g_find_left (l : iset) (x : ivl) : option Z :=
  match l with
  | [] => Some (-1)
  | _ => g_fil_loop (S (length l)) l (lo x) 0 (length l)
  end.

(** find_interval_right: the [while] loop, CanonicalIntervalSet.py:267-279. *)
Fixpoint g_fir_loop (fuel : nat) (l : iset) (e : Z) (low high : nat) : option Z :=
  match fuel with
  | O => None
  | S f =>
    if Nat.eqb low high then
      let low' := if Nat.eqb low (length l) then (low - 1)%nat else low in
      match nth_error l low' with
      | None => None
      | Some i => if lo i <=? inc e then Some (-1) else Some (Z.of_nat low')
      end
    else
      let mid := Nat.div2 (low + high) in
      match nth_error l mid with
      | None => None
      | Some im =>
        if lo im >? inc e then
          if Nat.eqb mid 0 then Some (Z.of_nat mid)
          else match nth_error l (mid - 1)%nat with
               | None => None
               | Some ip => if lo ip <=? inc e then Some (Z.of_nat mid)
                            else g_fir_loop f l e low mid
               end
        else g_fir_loop f l e (S mid) high
      end
  end.

(** find_interval_right, CanonicalIntervalSet.py:255-279. *)
Definition g_find_right (l : iset) (x : ivl) : option Z :=
  match l with
  | [] => Some (-1)
  | _ => g_fir_loop (S (length l)) l (hi x) 0 (length l)
  end.

(** add_interval, CanonicalIntervalSet.py:281-323.  The [del]/[insert] pair of
    lines 322-323 keeps the elements before [left] and those from
    [max left (right+1)] on (Python slice semantics). *)
Definition g_add_interval (l : iset) (x : ivl) : option iset :=
  match l with
  | [] => Some [x]
  | _ =>
    match g_find_left l x, g_find_right l x with
    | Some lft, Some rgt =>
      let n := Z.of_nat (length l) in
      if (lft >=? 0) && (rgt >=? 0) && (rgt - lft =? 1) then
        Some (firstn (Z.to_nat (lft + 1)) l ++ x :: skipn (Z.to_nat (lft + 1)) l)
      else if (lft =? -1) && (rgt =? 0) then Some (x :: l)
      else if (rgt =? -1) && (lft =? n - 1) then Some (l ++ [x])
      else
        let lft := lft + 1 in
        let rgt := if rgt >=? 0 then rgt - 1 else n - 1 in
        match py_nth l lft, py_nth l rgt with
        | Some il, Some ir =>
          let left_overlaps := ivl_overlaps il x || g_touches il x in
          let right_overlaps := ivl_overlaps ir x || g_touches ir x in
          let new_start := if left_overlaps then Z.min (lo x) (lo il) else lo x in
          let new_end := if right_overlaps then Z.max (hi x) (hi ir) else hi x in
          Some (firstn (Z.to_nat lft) l ++ Ivl new_start new_end ::
                skipn (Z.to_nat (Z.max lft (rgt + 1))) l)
        | _, _ => None
        end
    | _, _ => None
    end
  end.

(** add_hole, CanonicalIntervalSet.py:325-334. *)
Definition g_add_hole (l : iset) (h : ivl) : iset := flat_map (fun i => g_ivl_sub i h) l.

(** __ior__ / __or__, CanonicalIntervalSet.py:60-63, 78-81. *)
Fixpoint g_or (l m : iset) : option iset :=
  match m with
  | [] => Some l
  | x :: m' => match g_add_interval l x with Some l' => g_or l' m' | None => None end
  end.

(** __isub__ / __sub__, CanonicalIntervalSet.py:65-68, 83-86. *)
Definition g_sub (l m : iset) : iset := fold_left g_add_hole m l.

(** contained_in, CanonicalIntervalSet.py:98-113. *)
Fixpoint g_contained_loop (l m : iset) : option bool :=
  match l with
  | [] => Some true
  | x :: l' =>
    match g_find_left m x with
    | None => None
    | Some lft =>
      if lft =? Z.of_nat (length m) - 1 then Some false
      else match py_nth m (lft + 1) with
           | None => None
           | Some y => if negb (ivl_is_subset x y) then Some false
                       else g_contained_loop l' m
           end
    end
  end.

Definition g_contained_in (l m : iset) : option bool :=
  match l, m with
  | [x], [y] => Some (ivl_is_subset x y)
  | _, _ => g_contained_loop l m
  end.

(** get_interval_set, CanonicalIntervalSet.py:336-347. *)
Definition get_interval_set (s e : Z) : iset := [Ivl s e].

(** __contains__, CanonicalIntervalSet.py:49-51. *)
Definition g_contains (l : iset) (x : Z) : option bool := g_contained_in (get_interval_set x x) l.

End Arith.

(** __and__ / __iand__, CanonicalIntervalSet.py:53-58, 70-76. *)
Definition iset_and (l m : iset) : iset :=
  flat_map (fun a => flat_map (fun b => ivl_and a b) m) l.

(** overlaps, CanonicalIntervalSet.py:115-125. *)
Definition iset_overlaps (l m : iset) : bool :=
  existsb (fun a => existsb (fun b => ivl_overlaps a b) m) l.

(** __eq__, CanonicalIntervalSet.py:21-24 (list equality of intervals). *)
Fixpoint iset_eqb (l m : iset) : bool :=
  match l, m with
  | [], [] => true
  | a :: l', b :: m' => ivl_eqb a b && iset_eqb l' m'
  | _, _ => false
  end.

(** __bool__, CanonicalIntervalSet.py:18-19. *)
Definition iset_bool (l : iset) : bool := match l with [] => false | _ => true end.

(** rep, CanonicalIntervalSet.py:127-131 ([None] is IndexError). *)
Definition iset_rep (l : iset) : option Z := match l with [] => None | i :: _ => Some (lo i) end.

(** is_single_value, CanonicalIntervalSet.py:364-368. *)
Definition iset_is_single_value (l : iset) : bool :=
  match l with [i] => ivl_is_single_value i | _ => false end.

(** get_interval_set_list_numbers_and_ranges, CanonicalIntervalSet.py:349-362.
    The Python list mixes ints and strings 'a-b'; an item is represented by the
    constructor telling which of the two it is. *)
Inductive num_or_range := Num (n : Z) | Range (a b : Z).
Definition iset_list_numbers_and_ranges (l : iset) : list num_or_range :=
  map (fun i => if lo i =? hi i then Num (lo i) else Range (lo i) (hi i)) l.

(** The int instance: bounds with exact [+1] / [-1]. *)
Definition touches := g_touches Z.succ.
Definition ivl_or := g_ivl_or Z.succ.
Definition ivl_sub := g_ivl_sub Z.succ Z.pred.
Definition find_left := g_find_left Z.pred.
Definition find_right := g_find_right Z.succ.
Definition add_interval := g_add_interval Z.succ Z.pred.
Definition add_hole := g_add_hole Z.succ Z.pred.
Definition iset_or := g_or Z.succ Z.pred.
Definition iset_sub := g_sub Z.succ Z.pred.
Definition contained_in := g_contained_in Z.pred.
Definition iset_contains := g_contains Z.pred.
