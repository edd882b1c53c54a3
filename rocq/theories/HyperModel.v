(** * Model of nca/CoreDS/CanonicalHyperCubeSet.py (and of the parts of
      nca/CoreDS/ConnectivityProperties.py that specialise it).

    Dimensions are natural numbers (the Python code uses names); the ordered list
    [all_dimensions_list] is the argument [all].  Values of a dimension
    (CanonicalIntervalSet or MinDFA objects) form an abstract type [V] with the
    operations the Python code calls on them, gathered in the record [vops].

    A Python hyper-cube object is a node carrying
    - its class ([Plain] = CanonicalHyperCubeSet, [Conn] = ConnectivityProperties):
      it matters because ConnectivityProperties.__eq__ and copy are overridden
      (ConnectivityProperties.py:158-161, 178-186);
    - [active_dimensions];
    - the dict [layers], as an association list in insertion order.
    The constant [CanonicalHyperCubeSet.empty_interval] stored below the last
    dimension is [Leaf].  A failed [assert] or an IndexError is the value [Fail];
    it is never equal to a well-formed object and is truthy, so that it is kept
    in the result when it occurs below the root.

    Aliasing: mutating methods return the new object.  The Python code shares
    sub-objects only in build_new_active_dimensions (731-732) and through
    [active_dimensions] lists, which are never mutated in place; repeated in-place
    updates of a shared sub-object are idempotent there. *)
From Coq Require Import List Bool Arith Lia.
Import ListNotations.

Definition dim := nat.

(** Operations used on layer keys. *)
Record vops (V P : Type) := VOps {
  vand : V -> V -> V;          (* & *)
  vor : V -> V -> V;           (* | *)
  vsub : V -> V -> V;          (* - *)
  vbool : V -> bool;           (* bool() *)
  veqb : V -> V -> bool;       (* == *)
  vcont : V -> V -> bool;      (* contained_in *)
  vin : P -> V -> bool;        (* in *)
  vrep : V -> P;               (* rep() *)
  vdom : dim -> V;             (* DimensionsManager.get_dimension_domain_by_name *)
  vwhole : dim -> V -> bool    (* the "equals the domain" test of _reduce_cube, lines 131-132 *)
}.
Arguments vand {V P}. Arguments vor {V P}. Arguments vsub {V P}. Arguments vbool {V P}.
Arguments veqb {V P}. Arguments vcont {V P}. Arguments vin {V P}. Arguments vrep {V P}. Arguments vdom {V P}. Arguments vwhole {V P}.

Inductive cls := Plain | Conn.
Definition cls_eqb (a b : cls) : bool := match a, b with Plain, Plain | Conn, Conn => true | _, _ => false end.

Inductive hc (V : Type) :=
| Leaf
| Fail
| Node (c : cls) (act : list dim) (ls : list (V * hc V)).
Arguments Leaf {V}. Arguments Fail {V}. Arguments Node {V}.

Definition mem_dim (d : dim) (l : list dim) : bool := existsb (Nat.eqb d) l.
Definition subset_dims (a b : list dim) : bool := forallb (fun d => mem_dim d b) a.
Fixpoint dims_eqb (a b : list dim) : bool :=
  match a, b with
  | [], [] => true
  | x :: a', y :: b' => Nat.eqb x y && dims_eqb a' b'
  | _, _ => false
  end.

Section Ops.
Context {V P : Type} (O : vops V P).
Notation hc := (hc V).

Definition act_of (h : hc) : list dim := match h with Node _ a _ => a | _ => [] end.
Definition layers_of (h : hc) : list (V * hc) := match h with Node _ _ ls => ls | _ => [] end.
Definition cls_of (h : hc) : cls := match h with Node c _ _ => c | _ => Plain end.

(** Python dict assignment [d[k] = x] and lookup, w.r.t. key equality. *)
Fixpoint dset (ls : list (V * hc)) (k : V) (x : hc) : list (V * hc) :=
  match ls with
  | [] => [(k, x)]
  | (k', x') :: t => if veqb O k' k then (k', x) :: t else (k', x') :: dset t k x
  end.
Fixpoint dget (ls : list (V * hc)) (k : V) : option hc :=
  match ls with
  | [] => None
  | (k', x') :: t => if veqb O k' k then Some x' else dget t k
  end.
(** A dict filled by a sequence of assignments, in program order. *)
Definition dict_of (asg : list (V * hc)) : list (V * hc) :=
  fold_left (fun d kx => dset d (fst kx) (snd kx)) asg [].

(** __bool__, CanonicalHyperCubeSet.py:52-56; bool(empty_interval) is False. *)
Definition hbool (h : hc) : bool :=
  match h with
  | Leaf => false
  | Fail => true
  | Node _ [] _ => true
  | Node _ _ ls => match ls with [] => false | _ => true end
  end.

(** __eq__, CanonicalHyperCubeSet.py:58-66 and ConnectivityProperties.py:158-161.
    Objects of different classes are unequal: ConnectivityProperties.__eq__ is tried
    first (it is the subclass) and returns False on a plain CanonicalHyperCubeSet.
    [all_dimensions_list] is the same for both operands here.  Dict equality: same
    number of keys, and every key of the first is in the second with an equal value. *)
Fixpoint hc_eqb (h1 h2 : hc) {struct h1} : bool :=
  match h1, h2 with
  | Leaf, Leaf => true
  | Node c1 a1 l1, Node c2 a2 l2 =>
    if negb (cls_eqb c1 c2) then false
    else if negb (hbool (Node c1 a1 l1)) && negb (hbool (Node c2 a2 l2)) then true
    else dims_eqb a1 a2 && Nat.eqb (length l1) (length l2) &&
         forallb (fun p => match p with (v, s) =>
                             match dget l2 v with Some s' => hc_eqb s s' | None => false end
                           end) l1
  | _, _ => false
  end.

(** CanonicalHyperCubeSet(all) / ConnectivityProperties(), CanonicalHyperCubeSet.py:41-50. *)
Definition hempty (c : cls) (all : list dim) : hc := Node c all [].
(** set_all, CanonicalHyperCubeSet.py:435-440. *)
Definition hall (c : cls) : hc := Node c [] [].
(** is_all, CanonicalHyperCubeSet.py:429-433. *)
Definition is_all (h : hc) : bool := match act_of h with [] => true | _ => false end.
(** _is_last_dimension, CanonicalHyperCubeSet.py:616-620. *)
Definition is_last (a : list dim) : bool := Nat.eqb (length a) 1.

(** _create_from_cube_aux, CanonicalHyperCubeSet.py:92-108.  [cube] is the list of
    (dimension, value) pairs, i.e. the Python lists cube_dims and cube zipped. *)
Fixpoint create_aux (cube : list (dim * V)) : hc :=
  match cube with
  | [] => Fail     (* cube[0] on an empty list *)
  | (d, v) :: rest =>
    match rest with
    | [] => Node Plain [d] [(v, Leaf)]
    | _ => Node Plain (map fst cube) [(v, create_aux rest)]
    end
  end.

(** _reduce_cube, CanonicalHyperCubeSet.py:110-135. [None] = is_empty. *)
Fixpoint reduce_cube (cube : list (dim * V)) : option (list (dim * V)) :=
  match cube with
  | [] => Some []
  | (d, v) :: rest =>
    if negb (vbool O v) then None
    else match reduce_cube rest with
         | None => None
         | Some r => Some (if negb (vwhole O d v) then (d, v) :: r else r)
         end
  end.

(** create_from_cube, CanonicalHyperCubeSet.py:68-90. *)
Definition create_from_cube (all : list dim) (cube : list (dim * V)) : hc :=
  match cube with
  | [] => Fail     (* assert cube *)
  | _ => match reduce_cube cube with
         | None => hempty Plain all
         | Some [] => hall Plain
         | Some r => create_aux r
         end
  end.

(** _get_dimensions_subset_by_order, CanonicalHyperCubeSet.py:157-163. *)
Definition by_order (all sub : list dim) : list dim := filter (fun d => mem_dim d sub) all.

(** The full cube over some dimensions, _get_entire_space_cube, CanonicalHyperCubeSet.py:165-177. *)
Definition full_cube (ds : list dim) : list (dim * V) := map (fun d => (d, vdom O d)) ds.

(** _apply_layer_elements_union, CanonicalHyperCubeSet.py:844-861: group the layers by
    equal sub-object (first occurrence fixes the position), or-ing their keys from left
    to right. *)
Fixpoint class_add (cs : list (V * hc)) (v : V) (s : hc) : list (V * hc) :=
  match cs with
  | [] => [(v, s)]
  | (v', s') :: t => if hc_eqb s' s then (vor O v' v, s') :: t else (v', s') :: class_add t v s
  end.
Definition apply_union (ls : list (V * hc)) : list (V * hc) :=
  dict_of (fold_left (fun cs p => class_add cs (fst p) (snd p)) ls []).

(** _and_aux, CanonicalHyperCubeSet.py:274-302. *)
Fixpoint and_aux (h1 h2 : hc) {struct h1} : hc :=
  match h1, h2 with
  | Node _ a1 l1, Node _ a2 l2 =>
    if negb (dims_eqb a1 a2) then Fail
    else
      let asg :=
        flat_map (fun p1 => match p1 with (v1, s1) =>
          flat_map (fun p2 => match p2 with (v2, s2) =>
            let c := vand O v1 v2 in
            if negb (vbool O c) then []
            else if is_last a1 then [(c, Leaf)]
            else let s := and_aux s1 s2 in
                 if hbool s then [(c, s)] else []
          end) l2 end) l1 in
      Node Plain a1 (apply_union (dict_of asg))
  | _, _ => Fail
  end.

(** What is left of key [v] after removing its common parts with the keys of [l]
    (lines 340-346 / 390-395; [-=] is applied once per overlapping key, in order). *)
Definition rem_self (v : V) (l : list (V * hc)) : V :=
  fold_left (fun r p => let c := vand O v (fst p) in if vbool O c then vsub O r c else r) l v.
(** Same, seen from the other operand (line 345). *)
Definition rem_other (v : V) (l : list (V * hc)) : V :=
  fold_left (fun r p => let c := vand O (fst p) v in if vbool O c then vsub O r c else r) l v.

(** or_aux, CanonicalHyperCubeSet.py:325-359. *)
Fixpoint or_aux (h1 h2 : hc) {struct h1} : hc :=
  match h1, h2 with
  | Node _ a1 l1, Node _ a2 l2 =>
    if negb (dims_eqb a1 a2) then Fail
    else
      let asg :=
        flat_map (fun p1 => match p1 with (v1, s1) =>
          flat_map (fun p2 => match p2 with (v2, s2) =>
            let c := vand O v1 v2 in
            if negb (vbool O c) then []
            else if is_last a1 then [(c, Leaf)]
            else [(c, or_aux s1 s2)]
          end) l2
          ++ (let r := rem_self v1 l2 in if vbool O r then [(r, s1)] else [])
          end) l1
        ++ flat_map (fun p2 => match p2 with (v2, s2) =>
             let r := rem_other v2 l1 in if vbool O r then [(r, s2)] else []
           end) l2 in
      Node Plain a1 (apply_union (dict_of asg))
  | _, _ => Fail
  end.

(** sub_aux, CanonicalHyperCubeSet.py:378-408. *)
Fixpoint sub_aux (h1 h2 : hc) {struct h1} : hc :=
  match h1, h2 with
  | Node _ a1 l1, Node _ a2 l2 =>
    if negb (dims_eqb a1 a2) then Fail
    else
      let asg :=
        flat_map (fun p1 => match p1 with (v1, s1) =>
          flat_map (fun p2 => match p2 with (v2, s2) =>
            let c := vand O v1 v2 in
            if negb (vbool O c) then []
            else if is_last a1 then []
            else let s := sub_aux s1 s2 in
                 if hbool s then [(c, s)] else []
          end) l2
          ++ (let r := rem_self v1 l2 in if vbool O r then [(r, s1)] else [])
          end) l1 in
      Node Plain a1 (apply_union (dict_of asg))
  | _, _ => Fail
  end.

(** build_new_active_dimensions, CanonicalHyperCubeSet.py:708-741. *)
Fixpoint build (new : list dim) (h : hc) {struct new} : hc :=
  match h with
  | Node c a ls =>
    if negb (subset_dims a new) then Fail
    else if dims_eqb a new then h
    else
      match new, a with
      | n0 :: new', a0 :: _ =>
        if Nat.eqb a0 n0 then
          if negb (is_last a) then
            Node c new (map (fun p => (fst p, build new' (snd p))) ls)
          else
            match new' with
            | [] => Fail
            | n1 :: _ =>
              let sub := build new' (Node Plain [n1] [(vdom O n1, Leaf)]) in
              Node c new (map (fun p => (fst p, sub)) ls)
            end
        else Node c new [(vdom O n0, build new' h)]
      | _, _ => Fail
      end
  | _ => Fail
  end.

(** _set_active_dimensions, CanonicalHyperCubeSet.py:681-706. *)
Definition set_active (all req : list dim) (h : hc) : hc :=
  match h with
  | Node c a ls =>
    if subset_dims req a then h
    else
      let new := by_order all (a ++ req) in
      match a with
      | [] => Node c new (layers_of (create_aux (full_cube new)))
      | _ => build new h
      end
  | _ => Fail
  end.

(** _prepare_common_active_dimensions, CanonicalHyperCubeSet.py:410-427. *)
Definition prepare (all : list dim) (h1 h2 : hc) : hc * hc :=
  if dims_eqb (act_of h1) (act_of h2) then (h1, h2)
  else
    let req := act_of h1 ++ act_of h2 in
    let h1' := set_active all req h1 in
    if subset_dims (act_of h1) (act_of h2) then (h1', h2)
    else (h1', set_active all req h2).

(** _remove_some_active_dimensions, CanonicalHyperCubeSet.py:757-793.  The recursion
    follows the active dimensions [ds] of the object. *)
Fixpoint remove_some (ds new : list dim) (h : hc) {struct ds} : hc :=
  match h with
  | Node c a ls =>
    if negb (subset_dims new a) then Fail
    else match new with
    | [] => Fail
    | n0 :: new' =>
      if dims_eqb a new then h
      else match ds with
      | [] => Fail
      | d0 :: ds' =>
        if Nat.eqb d0 n0 then
          match new' with
          | [] => Node c new (map (fun p => (fst p, Leaf)) ls)
          | _ => Node c new (map (fun p => (fst p, remove_some ds' new' (snd p))) ls)
          end
        else
          remove_some ds' new (Node c ds' (dict_of (flat_map (fun p => layers_of (snd p)) ls)))
      end
    end
  | _ => Fail
  end.

(** _get_values_sets_per_active_dimension, CanonicalHyperCubeSet.py:808-824: the values
    found at dimension [d] (as a list; the empty list when [d] is not reached). *)
Fixpoint vals_at (ds : list dim) (d : dim) (h : hc) {struct ds} : list V :=
  match ds with
  | [] => []
  | d0 :: ds' =>
    if Nat.eqb d0 d then map fst (layers_of h)
    else match ds' with
         | [] => []
         | _ => flat_map (fun p => vals_at ds' d (snd p)) (layers_of h)
         end
  end.

(** The test [{dim_domain} == values_set] of line 839. *)
Definition full_dim (h : hc) (d : dim) : bool :=
  match vals_at (act_of h) d h with
  | [] => false
  | vs => forallb (fun v => veqb O (vdom O d) v) vs
  end.

(** reduce_active_dimensions and _set_inactive_dimensions, CanonicalHyperCubeSet.py:795-806, 826-842. *)
Definition reduce_active (all : list dim) (h : hc) : hc :=
  match h with
  | Node c a ls =>
    if negb (hbool h) || is_all h then h
    else
      let new := by_order all (filter (fun d => negb (full_dim h d)) a) in
      match new with
      | [] => hall c
      | _ => remove_some a new h
      end
  | _ => h
  end.

(** _override_by_other, CanonicalHyperCubeSet.py:202-204: keeps self's class. *)
Definition override (c : cls) (h : hc) : hc :=
  match h with Node _ a ls => Node c a ls | _ => Fail end.

(** __iand__, CanonicalHyperCubeSet.py:258-272 (__and__ works on a copy of self, 253-256). *)
Definition h_and (all : list dim) (h1 h2 : hc) : hc :=
  if is_all h2 then h1
  else if negb (hbool h2) || negb (hbool h1) then hempty (cls_of h1) all
  else if is_all h1 then override (cls_of h1) h2
  else let (h1', h2') := prepare all h1 h2 in
       reduce_active all (override (cls_of h1) (and_aux h1' h2')).

(** __ior__, CanonicalHyperCubeSet.py:309-323. *)
Definition h_or (all : list dim) (h1 h2 : hc) : hc :=
  if is_all h2 || is_all h1 then hall (cls_of h1)
  else if negb (hbool h2) then h1
  else if negb (hbool h1) then override (cls_of h1) h2
  else let (h1', h2') := prepare all h1 h2 in
       reduce_active all (override (cls_of h1) (or_aux h1' h2')).

(** __isub__, CanonicalHyperCubeSet.py:366-376.  Note that the branch for [other.is_all()]
    clears self and falls through, and that an empty self is not special-cased. *)
Definition h_sub (all : list dim) (h1 h2 : hc) : hc :=
  let h1 := if is_all h2 then hempty (cls_of h1) all else h1 in
  if negb (hbool h2) then h1
  else let (h1', h2') := prepare all h1 h2 in
       reduce_active all (override (cls_of h1) (sub_aux h1' h2')).

(** add_cube / add_hole, CanonicalHyperCubeSet.py:622-656 (explicit dimension list;
    the branches for empty cubes and empty values leave self unchanged). *)
Definition add_cube (all : list dim) (h : hc) (cube : list (dim * V)) : hc :=
  match cube with
  | [] => h
  | _ => if forallb (fun p => vbool O (snd p)) cube
         then override (cls_of h) (h_or all h (create_from_cube all cube)) else h
  end.
Definition add_hole (all : list dim) (h : hc) (cube : list (dim * V)) : hc :=
  match cube with
  | [] => h
  | _ => if forallb (fun p => vbool O (snd p)) cube
         then override (cls_of h) (h_sub all h (create_from_cube all cube)) else h
  end.

(** _get_cubes_list_from_layers, CanonicalHyperCubeSet.py:137-149. *)
Fixpoint cubes_list (h : hc) {struct h} : list (list V) :=
  match h with
  | Node _ a ls =>
    if is_last a then map (fun p => [fst p]) ls
    else flat_map (fun p => match p with (v, s) => map (fun c => v :: c) (cubes_list s) end) ls
  | _ => []
  end.

(** __iter__ / __len__, CanonicalHyperCubeSet.py:179-186, 196-200. *)
Definition iter_cubes (all : list dim) (h : hc) : list (list V) :=
  if is_all h then [map (vdom O) all] else cubes_list h.
Definition hlen (h : hc) : nat := if is_all h then 1 else length (cubes_list h).

(** get_first_item, CanonicalHyperCubeSet.py:567-585, without the dimension selection:
    values for all dimensions, in order; [None] for an empty object (NotImplemented). *)
Definition first_item (all : list dim) (h : hc) : option (list P) :=
  if negb (hbool h) then None
  else
    let cube := if is_all h then map (vdom O) all
                else match cubes_list h with c :: _ => c | [] => [] end in
    let tbl := combine (act_of h) cube in
    Some (map (fun d => vrep O (match find (fun p => Nat.eqb (fst p) d) tbl with
                                | Some (_, v) => v
                                | None => vdom O d
                                end)) all).

(** __contains__, CanonicalHyperCubeSet.py:220-251.  The item is a function from
    dimensions to points; the first layer containing the coordinate decides. *)
Fixpoint contains (item : dim -> P) (h : hc) {struct h} : bool :=
  match h with
  | Node _ [] _ => true
  | Node _ (d :: a') ls =>
    (fix go (l : list (V * hc)) : bool :=
       match l with
       | [] => false
       | (v, s) :: t =>
         if vin O (item d) v then (match a' with [] => true | _ => contains item s end)
         else go t
       end) ls
  | _ => false
  end.

(** _is_sub_elem_entire_sub_space, CanonicalHyperCubeSet.py:469-480. *)
Definition is_entire (h : hc) : bool := hc_eqb (create_aux (full_cube (act_of h))) h.

(** Case 3 (b) loop of _contained_in_aux for one layer of self, lines 541-564: returns
    [Some true] when the layer was counted, [Some false] when it was not, [None] for the
    early [return False].  [ok] is the verdict on (self sub-object, other sub-object). *)
Fixpoint cover_loop (ok : hc -> bool) (cur : V) (l : list (V * hc)) : option bool :=
  match l with
  | [] => Some false
  | (v2, s2) :: t =>
    let common := vand O cur v2 in
    if vbool O common then
      if negb (ok s2) then None
      else let remaining := vsub O cur common in
           if vbool O remaining then cover_loop ok remaining t else Some true
    else cover_loop ok cur t
  end.

(** _get_last_dim_cube_value, CanonicalHyperCubeSet.py:460-467 ([None]: failed assert). *)
Definition last_value (h : hc) : option V :=
  match h with
  | Node _ [_] [(v, _)] => Some v
  | _ => None
  end.

Fixpoint allM (l : list (option bool)) : option bool :=
  match l with
  | [] => Some true
  | x :: t => match x, allM t with Some a, Some b => Some (a && b) | _, _ => None end
  end.

(** _contained_in_aux, CanonicalHyperCubeSet.py:482-565, by recursion on [all_active_dims].
    [None] is a failed assertion. *)
Fixpoint contained_aux (ds : list dim) (h1 h2 : hc) {struct ds} : option bool :=
  match ds with
  | [] => None                                     (* assert all_active_dims *)
  | d :: ds' =>
    let a1 := act_of h1 in let a2 := act_of h2 in
    if negb (mem_dim d a2) then
      (* case 1: current_dim only in self, lines 493-508 *)
      if is_last a1 then
        if dims_eqb (d :: ds') a1 then Some true else Some (is_entire h2)
      else allM (map (fun p => contained_aux ds' (snd p) h2) (layers_of h1))
    else if negb (mem_dim d a1) then
      (* case 2: current_dim only in other, lines 511-529 *)
      if is_last a2 then Some (is_entire h2)
      else
        match layers_of h2 with
        | [] => None                               (* assert other.layers *)
        | _ :: _ =>
          (fix go (l : list (V * hc)) (acc : option V) : option bool :=
             match l with
             | [] => match acc with
                     | Some w => Some (veqb O w (vdom O d))
                     | None => None
                     end
             | (v, s) :: t =>
               match contained_aux ds' h1 s with
               | Some true => go t (Some (match acc with None => v | Some w => vor O w v end))
               | Some false => Some false
               | None => None
               end
             end) (layers_of h2) None
        end
    else if is_last a1 && is_last a2 then
      (* case 3 (a), lines 534-535 *)
      match last_value h1, last_value h2 with
      | Some v1, Some v2 => Some (vcont O v1 v2)
      | _, _ => None
      end
    else
      (* case 3 (b), lines 537-565; a failed assertion in a recursive call is treated as
         False here (it does not occur on well-formed objects, see the proofs) *)
      let verdicts :=
        map (fun p1 => cover_loop
               (fun s2 =>
                  if negb (is_last a1) && negb (is_last a2)
                  then match contained_aux ds' (snd p1) s2 with Some true => true | _ => false end
                  else if is_last a1 && negb (is_last a2) then is_entire s2
                  else true)
               (fst p1) (layers_of h2))
            (layers_of h1) in
      Some (forallb (fun v => match v with Some true => true | _ => false end) verdicts)
  end.

(** contained_in, CanonicalHyperCubeSet.py:443-458. *)
Definition h_contained (all : list dim) (h1 h2 : hc) : option bool :=
  if is_all h2 || negb (hbool h1) then Some true
  else if negb (hbool h2) || is_all h1 then Some false
  else contained_aux (by_order all (act_of h1 ++ act_of h2)) h1 h2.

End Ops.
