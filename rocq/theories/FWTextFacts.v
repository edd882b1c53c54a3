(** * Label expressions: how their texts are read, and what they mean. *)
From Coq Require Import ZArith List Bool Arith Lia String Ascii Permutation.
From Verif Require Import TextModel TextFacts PortProtoModel PortProtoFacts PeerModel PeerFacts PeerSetFacts PolicyModel QueryModel YamlModel ClusterModel FWModel FWFacts FWLabels FWTextModel.
Import ListNotations.
Local Open Scope string_scope.
Local Open Scope list_scope.
Local Open Scope nat_scope.

(** ** Label expressions *)
Inductive lexpr :=
| Has (k : string) | HasNot (k : string)                        (* has(k), !has(k) *)
| OneOf (k : string) (vs : list string)                         (* k=v, k in (v1,v2) *)
| NoneOf (k : string) (vs : list string)                        (* k!=v, k not in (v1,v2) *)
| Both (a b : lexpr) | Either (a b : lexpr).                    (* and, or *)
(** As in Kubernetes and Calico, a pod without the label [k] satisfies "k not in (...)". *)
Fixpoint holds (ls : list (string * string)) (e : lexpr) : Prop :=
  match e with
  | Has k => exists v, In (k, v) ls
  | HasNot k => forall v, ~ In (k, v) ls
  | OneOf k vs => exists v, In v vs /\ In (k, v) ls
  | NoneOf k vs => forall v, In v vs -> ~ In (k, v) ls
  | Both a b => holds ls a /\ holds ls b
  | Either a b => holds ls a \/ holds ls b
  end.

(** ** Reading a text *)
Definition chars := list ascii.
Notation "c # l" := (@cons ascii c%char l) (at level 60, right associativity).
(** Letters, digits, "-", ".", "/" and "_". *)
Definition label_char (c : ascii) : bool :=
  let n := nat_of_ascii c in
  (48 <=? n) && (n <=? 57) || (65 <=? n) && (n <=? 90) || (97 <=? n) && (n <=? 122) || (n =? 45) || (n =? 46) || (n =? 47) || (n =? 95).
Fixpoint word (l : chars) : string * chars :=
  match l with [] => ("", []) | c :: t => if label_char c then let r := word t in (String c (fst r), snd r) else ("", l) end.
Fixpoint words (l : chars) : list string * chars :=
  match l with
  | [] => ([""], [])
  | c :: t =>
    if label_char c then match words t with (w :: ws, r) => (String c w :: ws, r) | ([], r) => ([String c ""], r) end
    else if Ascii.eqb c "," then let r := words t in ("" :: fst r, snd r) else ([""], l)
  end.
Fixpoint lit (s : string) (l : chars) : option chars :=
  match s, l with
  | EmptyString, _ => Some l
  | String a s', c :: l' => if Ascii.eqb a c then lit s' l' else None
  | _, [] => None
  end.
Definition reader := chars -> option (lexpr * chars).
(** k=v, k!=v, k in (v1,v2), k not in (v1,v2) *)
Definition read_comparison : reader := fun l =>
  let (k, r) := word l in
  match lit "=" r with
  | Some r => let (v, r) := word r in Some (OneOf k [v], r)
  | None =>
  match lit "!=" r with
  | Some r => let (v, r) := word r in Some (NoneOf k [v], r)
  | None =>
  match lit " in (" r with
  | Some r => let (vs, r) := words r in match lit ")" r with Some r => Some (OneOf k vs, r) | None => None end
  | None =>
  match lit " not in (" r with
  | Some r => let (vs, r) := words r in match lit ")" r with Some r => Some (NoneOf k vs, r) | None => None end
  | None => None
  end end end end.
(** !has(k), has(k), (has(k) and comparison), comparison *)
Definition read_atom : reader := fun l =>
  match lit "!has(" l with
  | Some r => let (k, r) := word r in match lit ")" r with Some r => Some (HasNot k, r) | None => None end
  | None =>
  match lit "(has(" l with
  | Some r => let (k, r) := word r in
      match lit ") and " r with
      | None => None
      | Some r => match read_comparison r with
                  | None => None
                  | Some (e, r) => match lit ")" r with Some r => Some (Both (Has k) e, r) | None => None end
                  end
      end
  | None =>
  match lit "has(" l with
  | Some r => let (k, r) := word r in match lit ")" r with Some r => Some (Has k, r) | None => None end
  | None => read_comparison l
  end end end.
(** atom or atom *)
Definition read_either : reader := fun l =>
  match read_atom l with
  | None => None
  | Some (a, r) => match lit " or " r with
                   | None => Some (a, r)
                   | Some r => match read_atom r with Some (b, r) => Some (Either a b, r) | None => None end
                   end
  end.
(** the same, or in braces *)
Definition read_clause : reader := fun l =>
  match lit "{" l with
  | None => read_either l
  | Some r => match read_either r with
              | None => None
              | Some (e, r) => match lit "}" r with Some r => Some (e, r) | None => None end
              end
  end.
(** clause and clause and ... *)
Fixpoint read_clauses (fuel : nat) : reader := fun l =>
  match read_clause l with
  | None => None
  | Some (e, r) => match lit " and " r, fuel with
                   | Some r, S fuel => match read_clauses fuel r with Some (f, r) => Some (Both e f, r) | None => None end
                   | _, _ => Some (e, r)
                   end
  end.
Definition read_expr (s : string) : option lexpr :=
  match read_clauses (String.length s) (list_ascii_of_string s) with Some (e, []) => Some e | _ => None end.

(** ** The values of a key in a namespace *)
Section Values.
Context (cl : cluster).
Notation vget k n m := (lookup vkey_eqb (k, n) [] m).
Lemma vkey_eqb_eq : forall a b, vkey_eqb a b = true <-> a = b.
Proof using.
  intros [a n] [b m]. unfold vkey_eqb. cbn [fst snd]. rewrite andb_true_iff, String.eqb_eq, ns_eqb_eq. split; [intros [-> ->]; auto|intros H; injection H as -> ->; auto].
Qed.
Lemma vget_update : forall (m : lvals) k n v k' n' w, In w (vget k' n' (update vkey_eqb (k, n) [] (FWModel.sadd v) m)) <-> In w (vget k' n' m) \/ (k', n') = (k, n) /\ w = v.
Proof using.
  intros. rewrite (lookup_update vkey_eqb vkey_eqb_eq). destruct (vkey_eqb (k', n') (k, n)) eqn:E.
  - apply vkey_eqb_eq in E. rewrite <- E. rewrite FWFacts.sadd_In. split; [intros [->|H]; auto|intros [H|[_ ->]]; auto].
  - split; [auto|]. intros [H|[H _]]; auto. apply vkey_eqb_eq in H. congruence.
Qed.
Lemma add_value_In : forall k v pods m k' n w, In w (vget k' n (add_value cl k v pods m)) <-> In w (vget k' n m) \/ k' = k /\ w = v /\ exists p, In p pods /\ cl_ns cl p = n.
Proof using.
  intros k v pods m k' n w. unfold add_value.
  assert (G : forall l m, In w (vget k' n (fold_left (fun m n => update vkey_eqb (k, n) [] (FWModel.sadd v) m) l m)) <-> In w (vget k' n m) \/ k' = k /\ w = v /\ In n l).
  { induction l as [|a l IH]; intros m0; cbn [fold_left In]; [tauto|]. rewrite IH, vget_update. split.
    - intros [[H|[H ->]]|H]; [auto| |tauto]. injection H as -> ->. auto.
    - intros [H|(-> & -> & [->|H])]; auto. }
  rewrite G, nset_In, in_map_iff. split; intros [H|(H1 & H2 & p & H3 & H4)]; auto; right; split; auto; split; auto; exists p; auto.
Qed.
(** Every value with a pod is known in the namespace of the pod. *)
Definition complete (st : lmap * lvals) : Prop := forall k v p, In p (lget k v (fst st)) -> In v (vget k (cl_ns cl p) (snd st)).
Lemma complete_set : forall m lv k v pods, complete (m, lv) -> complete (update lkey_eqb (k, v) [] (fun _ => pods) m, add_value cl k v pods lv).
Proof using.
  intros m lv k v pods H k' v' p. cbn [fst snd]. rewrite lget_update, add_value_In. destruct (_ && _) eqn:E; intros Hp.
  - apply pair_eqb in E as [-> ->]. right. split; auto. split; auto. exists p. auto.
  - left. apply H. exact Hp.
Qed.
Lemma complete0 : forall pods, complete (lmap0 cl pods, lvals0 cl pods).
Proof using.
  intros pods k v p. cbn [fst snd]. intros H. apply lmap0_spec in H as [Hp Hl]. unfold lvals0.
  assert (In1 : forall n ls m, In v (vget k n (fold_left (fun m kv => update vkey_eqb (fst kv, n) [] (FWModel.sadd (snd kv)) m) ls m)) <-> In v (vget k n m) \/ In (k, v) ls).
  { intros n. induction ls as [|[a b] ls IH]; intros m; cbn [fold_left In fst snd]; [tauto|]. rewrite IH, vget_update. split.
    - intros [[H|[H ->]]|H]; auto. injection H as ->. auto.
    - intros [H|[H|H]]; auto. injection H as -> ->. auto. }
  assert (Mono : forall n n' ls m, In v (vget k n m) -> In v (vget k n (fold_left (fun m kv => update vkey_eqb (fst kv, n') [] (FWModel.sadd (snd kv)) m) ls m))).
  { intros n n'. induction ls as [|[a b] ls IH]; intros m H; cbn [fold_left fst snd]; [exact H|]. apply IH. apply vget_update. auto. }
  assert (G : forall l m, In p l \/ In v (vget k (cl_ns cl p) m) ->
    In v (vget k (cl_ns cl p) (fold_left (fun m p => fold_left (fun m kv => update vkey_eqb (fst kv, cl_ns cl p) [] (FWModel.sadd (snd kv)) m) (cl_labels cl p) m) l m))).
  { induction l as [|a l IH]; intros m H; cbn [fold_left]; [destruct H as [[]|H]; exact H|]. apply IH. destruct H as [[->|H]|H]; auto.
    right. apply In1. auto. }
  apply G. auto.
Qed.
Lemma complete_fold : forall X (f : lmap * lvals -> X -> lmap * lvals) l st, (forall st x, complete st -> complete (f st x)) -> complete st -> complete (fold_left f l st).
Proof using. intros X f. induction l as [|a l IH]; intros st H C; cbn [fold_left]; auto. Qed.
Lemma complete_info : forall peers allowed k v p, In p (pods_of_label (cluster_info cl peers allowed) k v) -> In v (values_in (cluster_info cl peers allowed) k (cl_ns cl p)).
Proof using.
  intros peers allowed k v p. unfold pods_of_label, values_in, cluster_info. cbn [ci_lmap ci_lvals]. set (pods := without_ip_block peers).
  assert (C : complete (fold_left (conj_step cl) (filter has_colon allowed) (add_invalid cl pods allowed (lmap0 cl pods, lvals0 cl pods)))).
  { apply complete_fold.
    - intros st x C. unfold conj_step. apply complete_fold; auto. clear st C. intros [m lv] ws C. unfold conj_value. cbn [fst snd].
      match goal with |- complete (match ?a with [] => _ | _ :: _ => _ end) => destruct a as [|q t]; [exact C|] end. apply complete_set. exact C.
    - unfold add_invalid. apply complete_fold; [|apply complete0]. intros [m lv] x C. unfold invalid_step. cbn [fst snd]. apply complete_set. exact C. }
  exact (C k v p).
Qed.
(** The pods of a value of a simple key. *)
Lemma simple_value : forall peers allowed, labels_plain cl (without_ip_block peers) -> forall x, has_colon x = false -> In x (flattened allowed) ->
  forall w p, In p (pods_of_label (cluster_info cl peers allowed) x w) <-> value1 cl (without_ip_block peers) x w p.
Proof using.
  intros peers allowed LP x Cx Hx w p. unfold pods_of_label, cluster_info. cbn [ci_lmap]. set (pods := without_ip_block peers) in *.
  set (st := add_invalid cl pods allowed (lmap0 cl pods, lvals0 cl pods)).
  destruct (add_invalid_spec cl pods allowed (lvals0 cl pods) LP) as (_ & M). fold st in M.
  destruct (conj_all_spec cl pods allowed (filter has_colon allowed) st LP) as (I1 & _ & _).
  { intros y Hy. apply filter_In in Hy. exact Hy. }
  { intros y _ Hy. apply M; auto. }
  { intros y u q Hy Hq. unfold st in Hq. apply lmap_keys in Hq; auto. rewrite has_colon_char in Hy. unfold colon_free in Hq. congruence. }
  rewrite I1 by auto. apply M. exact Hx.
Qed.
End Values.

(** ** The texts are read as they are meant *)
Notation chars_of := list_ascii_of_string.
Lemma chars_app : forall a b, chars_of (a ++ b)%string = chars_of a ++ chars_of b.
Proof. induction a as [|c a IH]; intros b; cbn; [reflexivity|]. rewrite IH. reflexivity. Qed.
Definition plain (s : string) : Prop := forallb label_char (chars_of s) = true.
Definition ends (l : chars) : Prop := match l with [] => True | c :: _ => label_char c = false /\ c <> ","%char end.
Lemma word_app : forall s r, plain s -> ends r -> word (chars_of s ++ r) = (s, r).
Proof.
  unfold plain. induction s as [|c s IH]; intros r P E; cbn [chars_of app].
  - destruct r as [|c r]; [reflexivity|]. cbn [word]. destruct E as [E _]. rewrite E. reflexivity.
  - cbn [chars_of forallb] in P. apply andb_true_iff in P as [P1 P2]. cbn [word]. rewrite P1, (IH r P2 E). reflexivity.
Qed.
Lemma concat_cons2 : forall sep a b l, String.concat sep (a :: b :: l) = (a ++ sep ++ String.concat sep (b :: l))%string.
Proof. reflexivity. Qed.
Lemma words_one : forall s r x y, plain s -> words r = ("" :: x, y) -> words (chars_of s ++ r) = (s :: x, y).
Proof.
  unfold plain. induction s as [|c s IH]; intros r x y P E; cbn [chars_of app]; [exact E|].
  cbn [chars_of forallb] in P. apply andb_true_iff in P as [P1 P2]. cbn [words]. rewrite P1, (IH r x y P2 E). reflexivity.
Qed.
Lemma words_app : forall vs r, vs <> [] -> Forall plain vs -> ends r -> words (chars_of (String.concat "," vs) ++ r) = (vs, r).
Proof.
  induction vs as [|v vs IH]; intros r N F E; [congruence|]. inversion F as [|? ? F1 F2]; subst. destruct vs as [|w vs].
  - cbn [String.concat]. apply words_one; auto. destruct r as [|c r]; [reflexivity|]. destruct E as [E1 E2]. cbn [words]. rewrite E1. destruct (Ascii.eqb_spec c ","); [congruence|reflexivity].
  - rewrite concat_cons2, chars_app, <- app_assoc. apply words_one; auto. change (chars_of ("," ++ String.concat "," (w :: vs))%string) with (","%char :: chars_of (String.concat "," (w :: vs))).
    cbn [app words]. rewrite IH by (auto; discriminate). reflexivity.
Qed.
Lemma lit_app : forall s r, lit s (chars_of s ++ r) = Some r.
Proof. induction s as [|c s IH]; intros r; cbn; [reflexivity|]. rewrite Ascii.eqb_refl. apply IH. Qed.
Lemma lit_word : forall s0 d s1 k c r, plain s0 -> plain k -> label_char c = false -> label_char d = false -> c <> d -> lit (s0 ++ String d s1) (chars_of k ++ c :: r) = None.
Proof.
  unfold plain. induction s0 as [|a s0 IH]; intros d s1 k c r P0 Pk Ec Ed N; destruct k as [|b k]; cbn [append chars_of app lit].
  - destruct (Ascii.eqb_spec d c); [congruence|reflexivity].
  - cbn [chars_of forallb] in Pk. apply andb_true_iff in Pk as [Pb _]. destruct (Ascii.eqb_spec d b); [congruence|reflexivity].
  - cbn [chars_of forallb] in P0. apply andb_true_iff in P0 as [Pa _]. destruct (Ascii.eqb_spec a c); [congruence|reflexivity].
  - cbn [chars_of forallb] in *. apply andb_true_iff in P0 as [_ P0]. apply andb_true_iff in Pk as [_ Pk]. destruct (Ascii.eqb a b); [|reflexivity]. apply IH; auto.
Qed.
(** A text read as [e], whatever follows. *)
Definition reads_cmp (s : string) (e : lexpr) : Prop := forall r, ends r -> read_comparison (chars_of s ++ r) = Some (e, r).
Definition reads_atom (s : string) (e : lexpr) : Prop := forall r, ends r -> read_atom (chars_of s ++ r) = Some (e, r).
Definition key_ok (k : string) : Prop := k <> "" /\ plain k.
Lemma ends_lit : forall c r, label_char c = false -> c <> ","%char -> ends (c :: r).
Proof. intros c r H1 H2. split; auto. Qed.
Ltac ends_solve := apply ends_lit; [reflexivity|discriminate].
Lemma cmp_eq : forall k v, plain k -> plain v -> reads_cmp (k ++ "=" ++ v) (OneOf k [v]).
Proof.
  intros k v Pk Pv r E. rewrite !chars_app, <- !app_assoc. unfold read_comparison. rewrite word_app by (auto; ends_solve). cbn [chars_of app lit Ascii.eqb Bool.eqb].
  rewrite word_app by auto. reflexivity.
Qed.
Lemma cmp_ne : forall k v, plain k -> plain v -> reads_cmp (k ++ "!=" ++ v) (NoneOf k [v]).
Proof.
  intros k v Pk Pv r E. rewrite !chars_app, <- !app_assoc. unfold read_comparison. rewrite word_app by (auto; ends_solve). cbn [chars_of app lit Ascii.eqb Bool.eqb].
  rewrite word_app by auto. reflexivity.
Qed.
Lemma cmp_in : forall k vs, plain k -> vs <> [] -> Forall plain vs -> reads_cmp (k ++ " " ++ "in" ++ " (" ++ String.concat "," vs ++ ")") (OneOf k vs).
Proof.
  intros k vs Pk N Pv r E. rewrite !chars_app, <- !app_assoc. unfold read_comparison. rewrite word_app by (auto; ends_solve). cbn [chars_of app lit Ascii.eqb Bool.eqb].
  rewrite words_app by (auto; ends_solve). reflexivity.
Qed.
Lemma cmp_not_in : forall k vs, plain k -> vs <> [] -> Forall plain vs -> reads_cmp (k ++ " " ++ "not in" ++ " (" ++ String.concat "," vs ++ ")") (NoneOf k vs).
Proof.
  intros k vs Pk N Pv r E. rewrite !chars_app, <- !app_assoc. unfold read_comparison. rewrite word_app by (auto; ends_solve). cbn [chars_of app lit Ascii.eqb Bool.eqb].
  rewrite words_app by (auto; ends_solve). reflexivity.
Qed.
(** A comparison is not read as something else. *)
Lemma atom_cmp : forall k t e, key_ok k -> (exists c t', t = String c t' /\ label_char c = false /\ c <> "("%char) -> reads_cmp (k ++ t) e -> reads_atom (k ++ t) e.
Proof.
  intros k t e [N P] (c & t' & -> & Ec & Nc) R r E. unfold read_atom. specialize (R r E). rewrite chars_app, <- app_assoc in *. cbn [chars_of app] in *.
  rewrite (lit_word "has" "(" "" k c _) by (auto; reflexivity). destruct k as [|a k]; [congruence|]. unfold plain in P. cbn [chars_of forallb app] in *. apply andb_true_iff in P as [Pa _].
  cbn [lit]. destruct (Ascii.eqb_spec "!" a) as [<-|_]; [discriminate|]. destruct (Ascii.eqb_spec "(" a) as [<-|_]; [discriminate|]. exact R.
Qed.
Lemma atom_has : forall k, plain k -> reads_atom ("has(" ++ k ++ ")") (Has k).
Proof.
  intros k P r E. unfold read_atom. rewrite !chars_app, <- !app_assoc. cbn [chars_of app lit Ascii.eqb Bool.eqb]. rewrite word_app by (auto; ends_solve). reflexivity.
Qed.
Lemma atom_has_not : forall k, plain k -> reads_atom ("!has(" ++ k ++ ")") (HasNot k).
Proof.
  intros k P r E. unfold read_atom. rewrite !chars_app, <- !app_assoc. cbn [chars_of app lit Ascii.eqb Bool.eqb]. rewrite word_app by (auto; ends_solve). reflexivity.
Qed.
Lemma atom_both : forall k s e, plain k -> reads_cmp s e -> reads_atom ("(has(" ++ k ++ ") and " ++ s ++ ")") (Both (Has k) e).
Proof.
  intros k s e P R r E. unfold read_atom. rewrite !chars_app, <- !app_assoc. cbn [chars_of app lit Ascii.eqb Bool.eqb]. rewrite word_app by (auto; ends_solve). cbn [lit Ascii.eqb Bool.eqb].
  rewrite R by ends_solve. cbn [lit Ascii.eqb Bool.eqb]. reflexivity.
Qed.

(** ** Sorted lists *)
Lemma insert_perm : forall s l, Permutation (insert_text s l) (s :: l).
Proof.
  intros s. induction l as [|x l IH]; cbn [insert_text]; [reflexivity|]. destruct (String.compare x s); try reflexivity. rewrite IH. apply perm_swap.
Qed.
Lemma sort_perm : forall l, Permutation (sort_texts l) l.
Proof. induction l as [|x l IH]; cbn [sort_texts fold_right]; [reflexivity|]. rewrite insert_perm. constructor. exact IH. Qed.
Lemma sort_In : forall l v, In v (sort_texts l) <-> In v l.
Proof. intros l v. split; apply Permutation_in; [|symmetry]; apply sort_perm. Qed.
Lemma sort_length : forall l, List.length (sort_texts l) = List.length l.
Proof. intros l. apply Permutation_length, sort_perm. Qed.

(** ** The comparison with some values *)
Definition valid_sem (k : string) (values complement : list string) (without : bool) (ls : list (string * string)) : Prop :=
  if negb (match complement with [] => true | _ => false end) && (List.length complement <? List.length values)
  then (without = true -> exists v, In (k, v) ls) /\ forall v, In v complement -> ~ In (k, v) ls
  else exists v, In v values /\ In (k, v) ls.
Lemma plain_sort : forall l, Forall plain l -> Forall plain (sort_texts l).
Proof. intros l H. rewrite Forall_forall in *. intros v Hv. apply H. apply sort_In. exact Hv. Qed.
Lemma valid_reads : forall k values complement without, key_ok k -> values <> [] -> Forall plain values -> Forall plain complement ->
  exists e, reads_atom (valid_text k values complement without) e /\ forall ls, holds ls e <-> valid_sem k values complement without ls.
Proof.
  intros k values complement without K N Pv Pc. unfold valid_text, valid_sem. pose proof (proj2 K) as Pk.
  destruct values as [|v0 vt] eqn:Ev; [congruence|]. rewrite <- Ev in *. clear Ev v0 vt.
  set (neg := negb _ && _). set (shorter := if neg then complement else values).
  assert (Ns : shorter <> []). { unfold shorter, neg. destruct complement as [|c t]; [exact N|]. cbn [negb andb]. destruct (_ <? _); [discriminate|exact N]. }
  assert (Ps : Forall plain shorter) by (unfold shorter; destruct neg; auto).
  set (expr := match shorter with [_] => _ | _ => _ end).
  assert (X : exists e, reads_cmp expr e /\ reads_atom expr e /\ e = if neg then NoneOf k (sort_texts shorter) else OneOf k (sort_texts shorter)).
  { unfold expr. clearbody neg. clear expr. destruct shorter as [|a t]; [congruence|]. destruct t as [|b t].
    - cbn [sort_texts fold_right insert_text String.concat]. inversion Ps; subst. eexists. split; [|split; [|reflexivity]]; destruct neg; cbn [append].
      + apply cmp_ne; auto.
      + apply cmp_eq; auto.
      + apply (atom_cmp k ("!=" ++ a)); auto; [exists "!"%char, ("=" ++ a)%string; repeat split; discriminate|apply cmp_ne; auto].
      + apply (atom_cmp k ("=" ++ a)); auto; [exists "="%char, a; repeat split; discriminate|apply cmp_eq; auto].
    - set (l := sort_texts (a :: b :: t)). assert (Nl : l <> []). { intros E. assert (X : In a l) by (apply sort_In; left; auto). rewrite E in X. destruct X. }
      assert (Pl : Forall plain l) by (apply plain_sort; exact Ps). clearbody l. eexists. split; [|split; [|reflexivity]]; destruct neg.
      + apply cmp_not_in; auto.
      + apply cmp_in; auto.
      + apply atom_cmp; auto; [eexists _, _; split; [reflexivity|split; [reflexivity|discriminate]]|apply cmp_not_in; auto].
      + apply atom_cmp; auto; [eexists _, _; split; [reflexivity|split; [reflexivity|discriminate]]|apply cmp_in; auto]. }
  clearbody expr. destruct X as (e & R1 & R2 & ->). destruct neg; cbn [andb].
  - destruct without.
    + eexists. split; [apply atom_both; eauto|]. intros ls. cbn [holds]. unfold shorter. split.
      * intros [H1 H2]. split; auto. intros v Hv. apply H2. apply sort_In. exact Hv.
      * intros [H1 H2]. split; auto. intros v Hv. apply H2. apply (proj1 (sort_In _ _)) in Hv. exact Hv.
    + eexists. split; [exact R2|]. intros ls. cbn [holds]. unfold shorter. split.
      * intros H2. split; [discriminate|]. intros v Hv. apply H2. apply sort_In. exact Hv.
      * intros [_ H2] v Hv. apply H2. apply (proj1 (sort_In _ _)) in Hv. exact Hv.
  - eexists. split; [exact R2|]. intros ls. cbn [holds]. unfold shorter. split; intros (v & H1 & H2); exists v; split; auto; apply sort_In; auto.
Qed.

(** ** The text for a simple key *)
Definition stop (r : chars) : Prop := r = [] \/ exists t, r = chars_of " and " ++ t.
Definition reads_clause (s : string) (e : lexpr) : Prop := forall r, stop r -> read_clause (chars_of s ++ r) = Some (e, r).
Definition brace_free (s : string) : Prop := has_char "{" s = false /\ has_char "}" s = false.
Lemma brace_app : forall a b, brace_free a -> brace_free b -> brace_free (a ++ b).
Proof. intros a b [A1 A2] [B1 B2]. unfold brace_free. rewrite !has_char_app, A1, A2, B1, B2. auto. Qed.
Lemma plain_char : forall s c, plain s -> label_char c = false -> has_char c s = false.
Proof.
  unfold plain. induction s as [|a s IH]; intros c P E; [reflexivity|]. cbn [chars_of forallb] in P. apply andb_true_iff in P as [P1 P2]. cbn [has_char]. rewrite IH by auto.
  destruct (Ascii.eqb_spec a c); [congruence|reflexivity].
Qed.
Lemma plain_brace : forall s, plain s -> brace_free s.
Proof. intros s P. split; apply plain_char; auto. Qed.
Lemma concat_brace : forall sep l, brace_free sep -> Forall brace_free l -> brace_free (String.concat sep l).
Proof.
  intros sep l S. induction l as [|x l IH]; intros F; [split; reflexivity|]. inversion F; subst. destruct l as [|y l]; [auto|]. rewrite concat_cons2. apply brace_app; auto. apply brace_app; auto.
Qed.
Ltac brace := repeat apply brace_app; try (split; reflexivity); try (apply plain_brace; assumption).
Lemma valid_brace : forall k values complement without, plain k -> Forall plain values -> Forall plain complement -> brace_free (valid_text k values complement without).
Proof.
  intros k values complement without Pk Pv Pc. unfold valid_text. destruct values as [|v0 vt] eqn:Ev; [split; reflexivity|]. rewrite <- Ev in *. clear Ev v0 vt.
  set (neg := negb _ && _). set (shorter := if neg then complement else values).
  assert (Ps : Forall plain shorter) by (unfold shorter; destruct neg; auto).
  assert (Bs : brace_free (String.concat "," (sort_texts shorter))).
  { apply concat_brace; [split; reflexivity|]. apply plain_sort in Ps. eapply Forall_impl; [|exact Ps]. exact plain_brace. }
  set (expr := match shorter with [_] => _ | _ => _ end).
  assert (Be : brace_free expr). { unfold expr. destruct shorter as [|a [|b t]]; brace; try exact Bs; destruct neg; split; reflexivity. }
  destruct (neg && without); [|exact Be]. brace. exact Be.
Qed.
Lemma remove_none : forall c s, has_char c s = false -> remove_char c s = s.
Proof. intros c. induction s as [|a s IH]; intros H; [reflexivity|]. cbn [has_char] in H. apply orb_false_iff in H as [H1 H2]. cbn [remove_char]. rewrite H1, IH; auto. Qed.
Lemma remove_app : forall c a b, remove_char c (a ++ b)%string = (remove_char c a ++ remove_char c b)%string.
Proof. intros c. induction a as [|x a IH]; intros b; [reflexivity|]. cbn [append remove_char]. destruct (Ascii.eqb x c); rewrite IH; reflexivity. Qed.
Lemma remove_braces : forall s, brace_free s -> remove_char "}" (remove_char "{" s) = s /\ remove_char "}" (remove_char "{" ("{" ++ s ++ "}")) = s.
Proof.
  intros s [H1 H2]. rewrite (remove_none "{" s H1). split; [apply remove_none; exact H2|]. rewrite !remove_app. rewrite (remove_none "{" s H1), (remove_none "}" s H2). cbn [remove_char Ascii.eqb Bool.eqb append]. clear. induction s as [|a s IH]; [reflexivity|]. cbn. rewrite IH. reflexivity.
Qed.
Lemma stop_ends : forall r, stop r -> ends r.
Proof. intros r [->|(t & ->)]; [exact I|split; [reflexivity|discriminate]]. Qed.
Lemma either_one : forall s e, reads_atom s e -> forall r, stop r \/ (exists t, r = "}"%char :: t) -> read_either (chars_of s ++ r) = Some (e, r).
Proof.
  intros s e R r H. unfold read_either. rewrite R; [|destruct H as [H|(t & ->)]; [apply stop_ends; exact H|split; [reflexivity|discriminate]]].
  destruct H as [[->|(t & ->)]|(t & ->)]; reflexivity.
Qed.
Lemma either_two : forall s1 e1 s2 e2, reads_atom s1 e1 -> reads_atom s2 e2 -> forall r, stop r \/ (exists t, r = "}"%char :: t) ->
  read_either (chars_of (s1 ++ " or " ++ s2) ++ r) = Some (Either e1 e2, r).
Proof.
  intros s1 e1 s2 e2 R1 R2 r H. unfold read_either. rewrite !chars_app, <- !app_assoc. rewrite R1 by ends_solve. cbn [chars_of app lit Ascii.eqb Bool.eqb].
  rewrite R2; [reflexivity|]. destruct H as [H|(t & ->)]; [apply stop_ends; exact H|ends_solve].
Qed.
Lemma lit_brace : forall s r, brace_free s -> stop r -> lit "{" (chars_of s ++ r) = None.
Proof.
  intros s r [H _] S. destruct s as [|a s]; [destruct S as [->|(t & ->)]; reflexivity|]. cbn [chars_of app lit]. cbn [has_char] in H. apply orb_false_iff in H as [H _].
  rewrite Ascii.eqb_sym, H. reflexivity.
Qed.
Lemma clause_of : forall s e, brace_free s -> (forall r, stop r \/ (exists t, r = "}"%char :: t) -> read_either (chars_of s ++ r) = Some (e, r)) ->
  reads_clause s e /\ reads_clause ("{" ++ s ++ "}") e.
Proof.
  intros s e B R. split; intros r H; unfold read_clause.
  - rewrite lit_brace by auto. apply R. auto.
  - rewrite !chars_app, <- !app_assoc. cbn [chars_of app lit Ascii.eqb Bool.eqb]. rewrite R by (right; eexists; reflexivity). reflexivity.
Qed.
Definition simple_sem (k : string) (all values : list string) (ls : list (string * string)) : Prop :=
  let valid := sdiff values [invalid_val] in
  let all_valid := sdiff all [invalid_val] in
  (In invalid_val values /\ forall v, ~ In (k, v) ls) \/
  (valid <> [] /\ if same_texts valid all_valid && (1 <? List.length all_valid) then exists v, In (k, v) ls
                  else valid_sem k valid (sdiff all_valid valid) (smem invalid_val all) ls).
Lemma sdiff_In : forall l m v, In v (sdiff l m) <-> In v l /\ ~ In v m.
Proof. intros l m v. unfold sdiff. rewrite filter_In, negb_true_iff. split; intros [H1 H2]; split; auto; [intros X; apply smem_In in X; congruence|]. destruct (smem v m) eqn:E; auto. apply smem_In in E. tauto. Qed.
Lemma simple_reads : forall k all values, key_ok k -> colon_free k -> values <> [] -> (forall v, In v values \/ In v all -> v = invalid_val \/ plain v) ->
  exists e, reads_clause (simple_text k all values) e /\ reads_clause (remove_char "}" (remove_char "{" (simple_text k all values))) e /\ forall ls, holds ls e <-> simple_sem k all values ls.
Proof.
  intros k all values K Ck N Pl. pose proof (proj2 K) as Pk. unfold simple_text, simple_sem. cbv zeta.
  set (valid := sdiff values [invalid_val]). set (all_valid := sdiff all [invalid_val]).
  assert (Pv : Forall plain valid). { apply Forall_forall. intros v Hv. apply sdiff_In in Hv as [H1 H2]. destruct (Pl v (or_introl H1)) as [->|H]; [destruct H2; left; auto|auto]. }
  assert (Pa : Forall plain all_valid). { apply Forall_forall. intros v Hv. apply sdiff_In in Hv as [H1 H2]. destruct (Pl v (or_intror H1)) as [->|H]; [destruct H2; left; auto|auto]. }
  assert (Pd : Forall plain (sdiff all_valid valid)). { rewrite Forall_forall in *. intros v Hv. apply sdiff_In in Hv as [H1 _]. auto. }
  assert (Ei : invalid_text k = ("!has(" ++ k ++ ")")%string). { unfold invalid_text. rewrite split_nochar by exact Ck. reflexivity. }
  assert (Ea : all_valid_text k = ("has(" ++ k ++ ")")%string). { unfold all_valid_text. rewrite split_nochar by exact Ck. reflexivity. }
  rewrite Ei, Ea. pose proof (atom_has_not k Pk) as Ri. assert (Bi : brace_free ("!has(" ++ k ++ ")")) by brace.
  assert (V : valid <> [] -> exists t e, (if same_texts valid all_valid && (1 <? List.length all_valid) then [("has(" ++ k ++ ")")%string] else [valid_text k valid (sdiff all_valid valid) (smem invalid_val all)]) = [t] /\
    reads_atom t e /\ brace_free t /\ forall ls, holds ls e <-> if same_texts valid all_valid && (1 <? List.length all_valid) then exists v, In (k, v) ls
                  else valid_sem k valid (sdiff all_valid valid) (smem invalid_val all) ls).
  { intros Nv. destruct (_ && _).
    - exists ("has(" ++ k ++ ")")%string, (Has k). split; [reflexivity|]. split; [apply atom_has; exact Pk|]. split; [brace|]. intros ls. cbn [holds]. tauto.
    - destruct (valid_reads k valid (sdiff all_valid valid) (smem invalid_val all) K Nv Pv Pd) as (e & R & S). eexists _, e. split; [reflexivity|]. split; [exact R|]. split; [apply valid_brace; auto|exact S]. }
  destruct (smem invalid_val values) eqn:Ev.
  - apply smem_In in Ev. destruct valid as [|v0 vt] eqn:Evd.
    + cbn [app sort_texts fold_right insert_text String.concat List.length Nat.ltb Nat.leb]. exists (HasNot k). pose proof (clause_of _ _ Bi (either_one _ _ Ri)) as [C1 _].
      split; [exact C1|]. split; [rewrite (proj1 (remove_braces _ Bi)); exact C1|]. intros ls. cbn [holds]. split; [auto|]. intros [[_ H]|[H _]]; [exact H|congruence].
    + destruct (V ltac:(discriminate)) as (t & e & -> & R & B & S). clear V. cbn [app List.length Nat.ltb Nat.leb].
      assert (O : sort_texts [("!has(" ++ k ++ ")")%string; t] = [("!has(" ++ k ++ ")")%string; t] \/ sort_texts [("!has(" ++ k ++ ")")%string; t] = [t; ("!has(" ++ k ++ ")")%string]).
      { cbn [sort_texts fold_right insert_text]. destruct (String.compare t _); auto. }
      assert (F : forall a ea b eb, reads_atom a ea -> reads_atom b eb -> brace_free a -> brace_free b ->
        reads_clause ("{" ++ String.concat " or " [a; b] ++ "}") (Either ea eb) /\ reads_clause (remove_char "}" (remove_char "{" ("{" ++ String.concat " or " [a; b] ++ "}"))) (Either ea eb)).
      { intros a ea b eb Ra Rb Ba Bb. assert (Bab : brace_free (String.concat " or " [a; b])). { cbn [String.concat]. apply brace_app; [exact Ba|]. apply brace_app; [split; reflexivity|exact Bb]. }
        destruct (clause_of (String.concat " or " [a; b]) (Either ea eb) Bab (either_two a ea b eb Ra Rb)) as [C1 C2]. split; [exact C2|]. rewrite (proj2 (remove_braces _ Bab)). exact C1. }
      destruct O as [-> | ->].
      * destruct (F _ _ _ _ Ri R Bi B) as [C1 C2]. eexists. split; [exact C1|]. split; [exact C2|]. intros ls. cbn [holds]. rewrite S. split; [intros [H|H]; [left; auto|right; split; [discriminate|auto]]|intros [[_ H]|[_ H]]; auto].
      * destruct (F _ _ _ _ R Ri B Bi) as [C1 C2]. eexists. split; [exact C1|]. split; [exact C2|]. intros ls. cbn [holds]. rewrite S. split; [intros [H|H]; [right; split; [discriminate|auto]|left; auto]|intros [[_ H]|[_ H]]; auto].
  - assert (Nv : valid <> []). { destruct values as [|v t]; [congruence|]. assert (X : In v valid); [|intros Y; rewrite Y in X; destruct X]. apply sdiff_In. split; [left; auto|]. intros [<-|[]].
      assert (X : smem invalid_val (invalid_val :: t) = true) by (apply smem_In; left; auto). congruence. }
    destruct (V Nv) as (t & e & E & R & B & S). clear V. destruct valid as [|v0 vt] eqn:Evd; [congruence|]. rewrite E. cbn [app sort_texts fold_right insert_text String.concat List.length Nat.ltb Nat.leb].
    exists e. pose proof (clause_of _ _ B (either_one _ _ R)) as [C1 _]. split; [exact C1|]. split; [rewrite (proj1 (remove_braces _ B)); exact C1|]. intros ls. rewrite S. split; [intros H; right; split; auto|].
    intros [[H _]|[_ H]]; [apply smem_In in H; congruence|exact H].
Qed.

(** ** Clauses joined by "and" *)
Lemma clause_fun : forall s e e', reads_clause s e -> reads_clause s e' -> e = e'.
Proof. intros s e e' H1 H2. specialize (H1 [] (or_introl eq_refl)). specialize (H2 [] (or_introl eq_refl)). congruence. Qed.
Lemma join_reads : forall es exps, Forall2 reads_clause es exps -> es <> [] -> forall fuel, List.length es <= S fuel ->
  exists e, read_clauses fuel (chars_of (String.concat " and " es)) = Some (e, []) /\ forall ls, holds ls e <-> Forall (holds ls) exps.
Proof.
  intros es exps F. induction F as [|s e es exps H F IH]; intros N fuel L; [congruence|]. destruct F as [|s' e' es exps H' F].
  - exists e. cbn [String.concat]. split.
    + specialize (H [] (or_introl eq_refl)). rewrite app_nil_r in H. destruct fuel; cbn [read_clauses]; rewrite H; reflexivity.
    + intros ls. split; [intros X; constructor; [exact X|constructor]|intros X; inversion X; auto].
  - destruct fuel as [|fuel]; [cbn in L; lia|]. destruct (IH ltac:(discriminate) fuel ltac:(cbn in *; lia)) as (f & Rf & Sf). exists (Both e f). split.
    + rewrite concat_cons2, !chars_app. cbn [read_clauses]. rewrite (H (chars_of " and " ++ _)) by (right; eexists; reflexivity). rewrite lit_app, Rf. reflexivity.
    + intros ls. cbn [holds]. rewrite Sf. split; [intros [H1 H2]; constructor; auto|intros X; inversion X; auto].
Qed.
Lemma read_one : forall s e, reads_clause s e -> read_expr s = Some e.
Proof.
  intros s e H. specialize (H [] (or_introl eq_refl)). rewrite app_nil_r in H. unfold read_expr. generalize (String.length s). intros m. destruct m; cbn [read_clauses]; rewrite H; reflexivity.
Qed.
Lemma join_length : forall es, List.length es <= S (String.length (String.concat " and " es)).
Proof.
  assert (A : forall a b, String.length (a ++ b) = String.length a + String.length b) by (induction a as [|c a IH]; intros b; cbn; [reflexivity|rewrite IH; reflexivity]).
  induction es as [|s es IH]; [cbn; lia|]. destruct es as [|s' es]; [cbn; lia|]. rewrite concat_cons2, !A. cbn [List.length String.length] in *. lia.
Qed.
(** The sorted list of the texts [es], each read as some clause. *)
Lemma sorted_reads : forall es, es <> [] -> (forall s, In s es -> exists e, reads_clause s e) ->
  exists e, read_expr (String.concat " and " (sort_texts es)) = Some e /\ forall ls, holds ls e <-> forall s f, In s es -> reads_clause s f -> holds ls f.
Proof.
  intros es N H. assert (F : exists exps, Forall2 reads_clause (sort_texts es) exps).
  { assert (G : forall l, (forall s, In s l -> In s es) -> exists exps, Forall2 reads_clause l exps).
    { induction l as [|s l IH]; intros Hl; [exists []; constructor|]. destruct (IH (fun t Ht => Hl t (or_intror Ht))) as (exps & F). destruct (H s (Hl s (or_introl eq_refl))) as (e & R). exists (e :: exps). constructor; auto. }
    apply G. intros s Hs. apply sort_In. exact Hs. }
  destruct F as (exps & F). assert (N' : sort_texts es <> []). { destruct es as [|s t]; [congruence|]. intros E. assert (X : In s (sort_texts (s :: t))) by (apply sort_In; left; auto). rewrite E in X. destruct X. }
  destruct (join_reads _ _ F N' (String.length (String.concat " and " (sort_texts es))) (join_length _)) as (e & R & S). exists e. split; [unfold read_expr; rewrite R; reflexivity|].
  intros ls. rewrite S. clear R S. split.
  - intros X s f Hs Rf. apply sort_In in Hs. clear - F X Hs Rf. induction F as [|t e l exps Rt F IH]; [destruct Hs|]. inversion X; subst. destruct Hs as [->|Hs]; [|auto]. rewrite (clause_fun s f e Rf Rt). auto.
  - intros X. assert (X' : forall s f, In s (sort_texts es) -> reads_clause s f -> holds ls f) by (intros s f Hs; apply X; apply sort_In; exact Hs). clear - F X'.
    induction F as [|t e l exps Rt F IH]; constructor; [apply (X' t e); [left; auto|exact Rt]|]. apply IH. intros s f Hs. apply X'. right. exact Hs.
Qed.

(** ** The values of a key are those of pods *)
Section Meaning.
Context (cl : cluster) (peers : peerset) (allowed : list string).
Notation pods := (without_ip_block peers).
Notation ci := (cluster_info cl peers allowed).
Notation vget k n m := (lookup vkey_eqb (k, n) [] m).
Context (LP : labels_plain cl pods).
(** Labels of Kubernetes: their keys and values have only these characters, the keys are not empty. *)
Definition labels_text : Prop := forall p k v, In p pods -> In (k, v) (cl_labels cl p) -> key_ok k /\ plain v.
Context (LT : labels_text).
(** The value [v] of the key [k] (of one or several labels) in a namespace. *)
Definition sound_at (k : string) (n : ns) (v : string) : Prop :=
  if has_colon k then exists p, In p pods /\ cl_ns cl p = n /\ carries cl k v p
  else v = invalid_val \/ exists p, In p pods /\ cl_ns cl p = n /\ In (k, v) (cl_labels cl p).
Definition sound (lv : lvals) : Prop := forall k n v, In v (vget k n lv) -> sound_at k n v.
Lemma sound0 : sound (lvals0 cl pods).
Proof using LP.
  intros k n v H. unfold lvals0 in H.
  assert (G : forall l (m : lvals), (forall p, In p l -> In p pods) -> sound m -> sound (fold_left (fun m p => fold_left (fun m kv => update vkey_eqb (fst kv, cl_ns cl p) [] (FWModel.sadd (snd kv)) m) (cl_labels cl p) m) l m)).
  { induction l as [|p l IH]; intros m Hl S; cbn [fold_left]; [exact S|]. apply IH; [intros q Hq; apply Hl; right; exact Hq|]. assert (Hp : In p pods) by (apply Hl; left; auto).
    assert (G1 : forall ls m, (forall kv, In kv ls -> In kv (cl_labels cl p)) -> sound m -> sound (fold_left (fun m kv => update vkey_eqb (fst kv, cl_ns cl p) [] (FWModel.sadd (snd kv)) m) ls m)).
    { induction ls as [|[a b] ls IHl]; intros m' Hls S'; cbn [fold_left fst snd]; [exact S'|]. apply IHl; [intros kv Hkv; apply Hls; right; exact Hkv|].
      intros k' n' v' H'. apply vget_update in H' as [H'|[E ->]]; [apply S'; exact H'|]. injection E as -> ->. assert (Hab : In (a, b) (cl_labels cl p)) by (apply Hls; left; auto).
      unfold sound_at. destruct (LP p Hp) as [_ X]. destruct (X a b Hab) as (Ca & _). unfold colon_free in Ca. rewrite <- has_colon_char in Ca. rewrite Ca. right. exists p. auto. }
    apply G1; auto. }
  apply (G pods [] (fun p Hp => Hp)) in H; [exact H|]. intros k' n' v' [].
Qed.
Lemma sound_invalid : forall st, sound (snd st) -> (forall k, In k (map fst (map fst (fst st))) -> has_colon k = false) -> sound (snd (add_invalid cl pods allowed st)).
Proof using.
  intros st S Hk. unfold add_invalid. set (ks := filter _ _).
  assert (Hks : forall k, In k ks -> has_colon k = false).
  { intros k H. apply filter_In in H as [H _]. apply Hk. pose proof (sadd_fold (fun e : lkey * peerset => [fst (fst e)]) (fst st) [] (NoDup_nil _)) as SF. cbn [fold_left] in SF. destruct SF as [_ SF].
    apply SF in H as [[]|(e & He & [<-|[]])]. apply in_map. apply in_map. exact He. }
  clearbody ks. clear Hk. revert st S. induction ks as [|k ks IH]; intros st S; cbn [fold_left]; [exact S|]. apply IH; [intros x Hx; apply Hks; right; exact Hx|].
  intros k' n v H. unfold invalid_step in H. cbn [snd] in H. apply add_value_In in H as [H|(-> & -> & _)]; [apply S; exact H|]. unfold sound_at. rewrite (Hks k (or_introl eq_refl)). auto.
Qed.
Lemma sound_conj : forall k st, has_colon k = true -> simple_ok (value1 cl pods) (split ":" k) (fst st) -> sound (snd st) -> sound (snd (conj_step cl st k)).
Proof using LP.
  intros k st Hk So S. unfold conj_step.
  assert (Ni : ~ In k (split ":" k)). { intros X. pose proof (proj1 (Forall_forall _ _) (split_free ":" k) k X) as F. cbn beta in F. rewrite has_colon_char in Hk. congruence. }
  assert (Len : forall ws, In ws (product (map (fun x => values_of x (fst st)) (split ":" k))) -> List.length ws = List.length (split ":" k)).
  { intros ws Hw. apply product_In in Hw. assert (X : forall (X Y : Type) (R : X -> Y -> Prop) l m, Forall2 R l m -> List.length l = List.length m) by (intros X Y R l0 m0 F; induction F; cbn; congruence).
    apply X in Hw. rewrite map_length in Hw. exact Hw. }
  revert Len. generalize (product (map (fun x => values_of x (fst st)) (split ":" k))). intros l Len. revert st So S. induction l as [|ws l IH]; intros st So S; cbn [fold_left]; [exact S|].
  pose proof (conj_value_spec cl (value1 cl pods) (fun keys ws p => joint_free cl pods keys ws p LP) k (split ":" k) st ws (TextFacts.split_ne _ _) (Len ws (or_introl eq_refl)) So) as (V1 & _).
  apply IH; [intros u Hu; apply Len; right; exact Hu| |].
  - intros x w p Hx. cbv zeta in V1. rewrite V1 by (intros ->; auto). apply So; exact Hx.
  - intros k' n v H. unfold conj_value in H. set (sets := map (fun kv : lkey => lookup lkey_eqb kv [] (fst st)) (combine (split ":" k) ws)) in H. destruct (match sets with [] => [] | s :: t => fold_left common t s end) as [|q0 t] eqn:E; [apply S; exact H|].
    cbn [snd] in H. apply add_value_In in H as [H|(-> & -> & p & Hp & En)]; [apply S; exact H|]. unfold sound_at. rewrite Hk.
    assert (J : joint (value1 cl pods) (split ":" k) ws p).
    { apply (sets_spec _ _ (fst st) ws p So (Len ws (or_introl eq_refl))). fold sets. rewrite <- E in Hp. destruct sets as [|s0 ss]; [destruct Hp|]. apply common_fold in Hp as [H1 H2]. constructor; auto. }
    exists p. split; [|split; [exact En|exists ws; split; [apply joint_carries in J; exact J|reflexivity]]].
    clear - J. pose proof (TextFacts.split_ne ":" k) as N. destruct J as [|x w keys ws [H _] J]; [congruence|exact H].
Qed.
Lemma values_sound : forall k n v, In v (values_in ci k n) -> sound_at k n v.
Proof using LP.
  unfold values_in, cluster_info. cbn [ci_lvals]. set (st := add_invalid cl pods allowed (lmap0 cl pods, lvals0 cl pods)).
  destruct (add_invalid_spec cl pods allowed (lvals0 cl pods) LP) as (_ & M). fold st in M.
  assert (S0 : sound (snd st)).
  { apply sound_invalid; [exact sound0|]. cbn [fst]. intros k Hk. apply in_map_iff in Hk as ([k' v] & <- & Hk). cbn [fst]. destruct (lmap0_spec cl pods) as [N0 M0].
    assert (E : exists p, In p (lget k' v (lmap0 cl pods))).
    { assert (G : forall l (m : lmap), (forall e, In e m -> snd e <> []) -> forall e, In e (fold_left (fun m p => fold_left (fun m kv => update lkey_eqb kv [] (padd p) m) (cl_labels cl p) m) l m) -> snd e <> []).
      { assert (U : forall p kv (m : lmap), (forall e, In e m -> snd e <> []) -> forall e, In e (update lkey_eqb kv [] (padd p) m) -> snd e <> []).
        { intros p kv. induction m as [|[a s] m IH]; intros Hm e He; cbn [update] in He.
          - destruct He as [<-|[]]. cbn. discriminate.
          - destruct (lkey_eqb kv a).
            + destruct He as [<-|He]; [|apply Hm; right; exact He]. cbn [snd]. intros X. assert (Y : In p (padd p s)) by (apply padd_In; auto). rewrite X in Y. destruct Y.
            + destruct He as [<-|He]; [apply (Hm (a, s)); left; auto|]. apply IH; auto. intros e' He'. apply Hm. right. exact He'. }
        induction l as [|p l IH]; intros m Hm; cbn [fold_left]; [exact Hm|]. apply IH. revert m Hm. induction (cl_labels cl p) as [|kv ls IHl]; intros m Hm; cbn [fold_left]; [exact Hm|]. apply IHl. apply U. exact Hm. }
      pose proof (In_lookup lkey_eqb lkey_eqb_eq [] (lmap0 cl pods) (k', v) Hk) as Hin. apply (G pods [] (fun e X => match X with end)) in Hin. cbn [snd] in Hin.
      destruct (lget k' v (lmap0 cl pods)) as [|p t]; [congruence|]. exists p. left. reflexivity. }
    destruct E as (p & Hp). apply M0 in Hp as [Hp Hl]. destruct (LP p Hp) as [_ X]. rewrite has_colon_char. apply (X _ _ Hl). }
  assert (G : forall ks st, (forall k, In k ks -> In k allowed /\ has_colon k = true) -> (forall x, has_colon x = false -> In x (flattened allowed) -> forall w p, In p (lget x w (fst st)) <-> value1 cl pods x w p) ->
    (forall k v p, has_colon k = true -> In p (lget k v (fst st)) -> full_value cl pods k v p) -> sound (snd st) -> sound (snd (fold_left (conj_step cl) ks st))).
  { induction ks as [|a ks IH]; intros st' Hks H1 H2 S; cbn [fold_left]; [exact S|]. destruct (Hks a (or_introl eq_refl)) as [Ha1 Ha2].
    assert (So : simple_ok (value1 cl pods) (split ":" a) (fst st')). { intros x w p Hx. apply H1; [exact (proj2 (split_colon a x Ha2 Hx))|]. apply flattened_In. exists a. auto. }
    destruct (conj_step_spec cl (value1 cl pods) (fun keys ws p => joint_free cl pods keys ws p LP) a st' Ha2 So) as (S1 & S2). { intros v p Hp. destruct (H2 a v p Ha2 Hp) as (ws & J & E). exists ws. auto. }
    apply IH; [intros k Hk; apply Hks; right; exact Hk| | |apply sound_conj; auto].
    - intros x Hx Hf w p. rewrite S1 by congruence. apply H1; auto.
    - intros k v p Hk Hp. destruct (string_dec k a) as [->|Ne]; [apply S2 in Hp as (ws & E & J); exists ws; auto|]. rewrite S1 in Hp by auto. apply H2; auto. }
  intros k n v. apply G; auto.
  - intros x Hx. apply filter_In in Hx. exact Hx.
  - intros x w q Hx Hq. unfold st in Hq. apply lmap_keys in Hq; auto. rewrite has_colon_char in Hx. unfold colon_free in Hq. congruence.
Qed.

(** ** What the text of an element says *)
Definition keyed (x : string) (n : ns) : Prop := exists q u, In q pods /\ In (x, u) (cl_labels cl q) /\ cl_ns cl q = n.
Lemma label_once : forall p k v w, In p pods -> In (k, v) (cl_labels cl p) -> In (k, w) (cl_labels cl p) -> v = w.
Proof using LP.
  intros p k v w Hp H1 H2. destruct (LP p Hp) as [N _]. revert N H1 H2. clear. induction (cl_labels cl p) as [|[a b] l IH]; cbn [map fst In]; intros N H1 H2; [destruct H1|].
  inversion N as [|? ? Na Nl]; subst. assert (X : forall z, In (k, z) l -> In k (map fst l)) by (intros z Hz; apply (in_map fst) in Hz; exact Hz).
  destruct H1 as [H1|H1], H2 as [H2|H2]; [congruence| | |auto]; exfalso; apply Na; [injection H1 as -> _|injection H2 as -> _]; eauto.
Qed.
Lemma simple_meaning : forall x n values p, has_colon x = false -> In x (flattened allowed) -> keyed x n -> In p pods -> cl_ns cl p = n ->
  (simple_sem x (values_in ci x n) values (cl_labels cl p) <-> exists w, In w values /\ carries1 cl p x w).
Proof using LP.
  intros x n values p Cx Hx (q0 & u0 & Hq0 & Hu0 & En0) Hp En.
  assert (Known : forall w, In (x, w) (cl_labels cl p) -> In w (sdiff (values_in ci x n) [invalid_val])).
  { intros w Hw. apply sdiff_In. split; [|intros [<-|[]]; destruct (LP p Hp) as [_ X]; destruct (X _ _ Hw) as (_ & _ & Y); congruence].
    rewrite <- En. apply complete_info. apply simple_value; auto. split; auto. }
  assert (Unk : (forall w, ~ In (x, w) (cl_labels cl p)) -> In invalid_val (values_in ci x n)).
  { intros H. rewrite <- En. apply complete_info. apply simple_value; auto. split; auto. right. split; auto. split; auto. exists q0, u0. split; auto. split; auto. congruence. }
  assert (Dec : (exists w, In (x, w) (cl_labels cl p)) \/ forall w, ~ In (x, w) (cl_labels cl p)).
  { clear. induction (cl_labels cl p) as [|[a b] l IH]; [right; intros w []|]. destruct (string_dec a x) as [->|N]; [left; exists b; left; auto|]. destruct IH as [(w & H)|H]; [left; exists w; right; auto|].
    right. intros w [E|E]; [congruence|]. exact (H w E). }
  unfold simple_sem. cbv zeta. set (all := sdiff (values_in ci x n) [invalid_val]) in *. set (valid := sdiff values [invalid_val]).
  assert (Vd : forall v, In v valid <-> In v values /\ v <> invalid_val). { intros v. unfold valid. rewrite sdiff_In. split; intros [H1 H2]; split; auto; [intros ->; apply H2; left; auto|intros [E|[]]; congruence]. }
  clearbody valid. split.
  - intros [[H1 H2]|[Nv H]]; [exists invalid_val; split; auto; right; auto|].
    assert (G : forall w, In w valid -> In (x, w) (cl_labels cl p) -> exists w, In w values /\ carries1 cl p x w) by (intros w H1 H2; exists w; split; [apply Vd; auto|left; auto]).
    destruct (same_texts valid all && _) eqn:E.
    + apply andb_true_iff in E as [E _]. unfold same_texts in E. apply andb_true_iff in E as [_ E]. rewrite forallb_forall in E. destruct H as (w & Hw). apply (G w); auto. apply smem_In. apply E. auto.
    + unfold valid_sem in H. destruct (negb _ && _); [|destruct H as (w & H1 & H2); apply (G w); auto].
      destruct H as [H1 H2]. destruct Dec as [(w & Hw)|Dec].
      * apply (G w); auto. destruct (in_dec string_dec w valid) as [Y|Y]; auto. exfalso. apply (H2 w); auto. apply sdiff_In. split; auto.
      * exfalso. destruct (smem invalid_val (values_in ci x n)) eqn:Ei; [destruct (H1 eq_refl) as (w & Hw); exact (Dec w Hw)|].
        pose proof (proj2 (smem_In _ _) (Unk Dec)) as X. congruence.
  - intros (w & Hw & Hc). assert (Cs : In (x, w) (cl_labels cl p) /\ w <> invalid_val \/ w = invalid_val /\ forall v, ~ In (x, v) (cl_labels cl p)).
    { destruct Hc as [H|H]; [left|right; exact H]. split; auto. destruct (LP p Hp) as [_ X]. apply (X _ _ H). }
    destruct Cs as [[H Nw]|[-> H]]; [right|left; auto]. assert (Vw : In w valid) by (apply Vd; auto). split; [intros E; rewrite E in Vw; destruct Vw|].
    destruct (same_texts valid all && _); [exists w; exact H|]. unfold valid_sem. destruct (negb _ && _); [|exists w; auto]. split; [intros _; exists w; exact H|].
    intros v Hv Hl. apply sdiff_In in Hv as [_ Hv]. apply Hv. rewrite (label_once p x v w Hp Hl H). exact Vw.
Qed.

Lemma prefix_app : forall w b, prefix w (w ++ b) = true.
Proof using. induction w as [|c w IH]; intros b; [destruct b; reflexivity|]. cbn. destruct (ascii_dec c c); [apply IH|congruence]. Qed.
Lemma contains_app : forall w a s, contains_str w s = true -> contains_str w (a ++ s) = true.
Proof using. induction a as [|c a IH]; intros s H; [exact H|]. cbn [append contains_str]. rewrite (IH s H). apply orb_true_r. Qed.
Lemma contains_part : forall w sep ws, In w ws -> contains_str w (String.concat sep ws) = true.
Proof using.
  intros w sep. assert (B : forall b, contains_str w (w ++ b) = true). { intros b. destruct (w ++ b)%string as [|c t] eqn:E; cbn [contains_str]; rewrite <- E, prefix_app; reflexivity. }
  assert (A0 : forall s : string, (s ++ "")%string = s) by (induction s as [|c s IH]; cbn; congruence).
  induction ws as [|x ws IH]; intros H; [destruct H|]. destruct ws as [|y ws].
  - destruct H as [->|[]]. cbn [String.concat]. rewrite <- (A0 w) at 2. apply B.
  - rewrite concat_cons2. destruct H as [->|H]; [apply B|]. apply contains_app. apply contains_app. apply IH. exact H.
Qed.
Lemma contains_hash : forall v, contains_str invalid_val v = true -> has_char "#" v = true.
Proof using.
  induction v as [|c v IH]; intros H; [discriminate|]. cbn [contains_str] in H. apply orb_true_iff in H as [H|H].
  - unfold invalid_val in H. cbn [prefix] in H. destruct (ascii_dec "#" c) as [<-|]; [reflexivity|discriminate].
  - cbn [has_char]. rewrite (IH H). apply orb_true_r.
Qed.
Lemma hash_free : forall ws, Forall plain ws -> contains_str invalid_val (String.concat ":" ws) = false.
Proof using.
  intros ws F. destruct (contains_str _ _) eqn:E; [|reflexivity]. apply contains_hash in E. exfalso. revert E. induction ws as [|x ws IH]; [discriminate|]. inversion F as [|? ? F1 F2]; subst.
  destruct ws as [|y ws]; [cbn [String.concat]; rewrite plain_char by auto; discriminate|]. rewrite concat_cons2, !has_char_app, (plain_char x "#" F1 eq_refl). cbn [has_char Ascii.eqb Bool.eqb orb]. apply IH. exact F2.
Qed.
Lemma combine_nth : forall (keys : list string) i x, nth_error keys i = Some x <-> In (i, x) (combine (seq 0 (List.length keys)) keys).
Proof using.
  intros keys. assert (G : forall j i x, In (i, x) (combine (seq j (List.length keys)) keys) <-> j <= i /\ nth_error keys (i - j) = Some x).
  { induction keys as [|a keys IH]; intros j i x; cbn [List.length seq combine In].
    - split; [intros []|]. intros [_ H]. destruct (i - j); discriminate.
    - rewrite IH. split.
      + intros [E|[H1 H2]]; [injection E as -> ->; split; [lia|]; rewrite Nat.sub_diag; reflexivity|]. split; [lia|]. replace (i - j) with (S (i - S j)) by lia. exact H2.
      + intros [H1 H2]. destruct (Nat.eq_dec i j) as [->|N]; [rewrite Nat.sub_diag in H2; injection H2 as ->; auto|]. right. split; [lia|]. replace (i - j) with (S (i - S j)) in H2 by lia. exact H2. }
  intros i x. rewrite G, Nat.sub_0_r. split; [auto with arith|intros [_ H]; exact H].
Qed.
Lemma mapM_all : forall X Y (f : X -> option Y) l, (forall x, In x l -> exists y, f x = Some y) -> exists r, mapM f l = Some r /\ Forall2 (fun x y => f x = Some y) l r.
Proof using.
  intros X Y f. induction l as [|a l IH]; intros H; [exists []; split; [reflexivity|constructor]|]. destruct (H a (or_introl eq_refl)) as (y & E). destruct (IH (fun x Hx => H x (or_intror Hx))) as (r & Er & F).
  exists (y :: r). cbn [mapM]. rewrite E, Er. split; [reflexivity|constructor; auto].
Qed.
Lemma text_set_In : forall l v, In v (text_set l) <-> In v l.
Proof using.
  intros l v. unfold text_set. assert (G : forall l r, In v (fold_left (fun r v => FWModel.sadd v r) l r) <-> In v r \/ In v l).
  { clear l. induction l as [|a l IH]; intros r; cbn [fold_left In]; [tauto|]. rewrite IH, FWFacts.sadd_In. split; [intros [[->|H]|H]; auto|intros [H|[->|H]]; auto]. }
  rewrite G. cbn. tauto.
Qed.
Lemma values_at_spec : forall vs i, (forall v, In v vs -> nth_error (split ":" v) i <> None) ->
  exists l, values_at vs i = Some l /\ forall w, In w l <-> exists v, In v vs /\ nth_error (split ":" v) i = Some w.
Proof using.
  intros vs i H. unfold values_at. destruct (mapM_all _ _ (fun v => nth_error (split ":" v) i) vs) as (l & E & F). { intros v Hv. specialize (H v Hv). destruct (nth_error (split ":" v) i) as [w|]; [exists w; reflexivity|congruence]. }
  exists (text_set l). rewrite E. split; [reflexivity|]. intros w. rewrite text_set_In. clear E H. induction F as [|v y vs l Hy F IH]; cbn [In]; [split; [intros []|intros (v & [] & _)]|]. rewrite IH. split.
  - intros [->|(v' & H1 & H2)]; [exists v; auto|exists v'; auto].
  - intros (v' & [<-|H1] & H2); [left; congruence|right; exists v'; auto].
Qed.

Section Element.
Context (k : string) (vs : list string) (n : ns).
Context (Hk : In k allowed) (Nv : vs <> []) (G : forall v, In v vs -> exists q, In q (pods_of_label ci k v) /\ In q (ns_pods cl ci n)).
Notation keys := (split ":" k).
Lemma ns_pod : forall p, In p (ns_pods cl ci n) <-> In p pods /\ cl_ns cl p = n.
Proof using. intros p. rewrite ns_pods_In. cbn [ci_peers cluster_info]. unfold without_ip_block. rewrite filter_In, negb_true_iff. tauto. Qed.
Lemma value_parts : forall v, In v vs -> exists q, In q pods /\ cl_ns cl q = n /\ joint (value1 cl pods) keys (split ":" v) q.
Proof using LP Hk G.
  intros v Hv. destruct (G v Hv) as (q & H1 & H2). apply ns_pod in H2 as [H2 H3]. apply label_value in H1 as (ws & J & ->); auto. exists q. split; auto. split; auto.
  destruct (joint_free _ _ _ _ _ LP J) as [L F]. rewrite concat_split; auto. intros ->. pose proof (TextFacts.split_ne ":" k). destruct (split ":" k); [congruence|discriminate].
Qed.
Lemma value1_plain : forall x w q, value1 cl pods x w q -> key_ok x /\ (w = invalid_val \/ plain w) /\ keyed x (cl_ns cl q).
Proof using LT.
  intros x w q [Hq [H|(-> & _ & q' & u & H1 & H2 & H3)]].
  - destruct (LT q x w Hq H) as [K P]. split; auto. split; auto. exists q, w. auto.
  - destruct (LT q' x u H1 H2) as [K P]. split; auto. split; auto. exists q', u. auto.
Qed.
Lemma key_parts : forall x, In x keys -> key_ok x /\ has_colon x = false /\ In x (flattened allowed) /\ keyed x n.
Proof using LP LT Hk Nv G.
  intros x Hx. destruct vs as [|v t] eqn:Ev; [congruence|]. rewrite <- Ev in *. destruct (value_parts v) as (q & Hq & En & J); [rewrite Ev; left; auto|].
  assert (X : exists w, value1 cl pods x w q). { clear - J Hx. induction J as [|y w ks ws H J IH]; [destruct Hx|]. destruct Hx as [->|Hx]; eauto. }
  destruct X as (w & X). destruct (value1_plain _ _ _ X) as (K & _ & Ky). split; auto. split; [|split; [apply flattened_In; exists k; auto|rewrite <- En; exact Ky]].
  pose proof (proj1 (Forall_forall _ _) (split_free ":" k) x Hx) as F. cbn beta in F. rewrite has_colon_char. exact F.
Qed.
Definition within (p : peer) : Prop := forall i x, nth_error keys i = Some x -> exists v w, In v vs /\ nth_error (split ":" v) i = Some w /\ carries1 cl p x w.
Lemma carried_within : forall p v, In v vs -> carries cl k v p -> In p pods -> within p.
Proof using LP.
  intros p v Hv (ws & F & ->) Hp i x Hx. exists (String.concat ":" ws).
  assert (Fr : ws <> [] /\ Forall colon_free ws).
  { split; [intros ->; inversion F as [E|]; pose proof (TextFacts.split_ne ":" k); congruence|]. clear - F Hp LP. induction F as [|y w ks ws H F IH]; constructor; auto. destruct H as [H|[-> _]]; [destruct (LP p Hp) as [_ X]; apply (X _ _ H)|reflexivity]. }
  rewrite concat_split by apply Fr. assert (W : exists w, nth_error ws i = Some w /\ carries1 cl p x w).
  { clear - F Hx. revert i Hx. induction F as [|y w ks ws H F IH]; intros [|i] Hx; try discriminate; cbn [nth_error] in *; [injection Hx as ->; exists w; auto|apply IH; exact Hx]. }
  destruct W as (w & W1 & W2). exists w. auto.
Qed.
Definition says (e : lexpr) : Prop :=
  (forall p, In p (ns_pods cl ci n) -> (exists v, In v vs /\ carries cl k v p) -> holds (cl_labels cl p) e) /\
  (forall p, In p (ns_pods cl ci n) -> holds (cl_labels cl p) e -> within p) /\
  ((forall p, In p (ns_pods cl ci n) -> ((exists v, In v vs /\ carries cl k v p) <-> forall x, In x keys -> exists w, In (x, w) (cl_labels cl p))) ->
   forall p, In p (ns_pods cl ci n) -> holds (cl_labels cl p) e -> exists v, In v vs /\ carries cl k v p).
Lemma says_all : forall e, same_texts vs (filter (fun v => negb (contains_str invalid_val v)) (values_in ci k n)) = true ->
  (forall ls, holds ls e <-> forall x, In x keys -> exists w, In (x, w) ls) -> says e.
Proof using LP LT Hk Nv G.
  intros e E He. unfold same_texts in E. apply andb_true_iff in E as [E1 E2]. rewrite forallb_forall in E1, E2.
  assert (X : forall p, In p (ns_pods cl ci n) -> ((exists v, In v vs /\ carries cl k v p) <-> holds (cl_labels cl p) e)).
  { intros p Hp. rewrite He. apply ns_pod in Hp as [Hp En]. split.
    - intros (v & Hv & ws & F & ->) x Hx. specialize (E1 _ Hv). apply smem_In in E1. apply filter_In in E1 as [_ E1]. apply negb_true_iff in E1.
      assert (W : exists w, In w ws /\ carries1 cl p x w). { clear - F Hx. induction F as [|y w ks ws H F IH]; [destruct Hx|]. destruct Hx as [->|Hx]; [exists w; split; [left; auto|auto]|]. destruct (IH Hx) as (w' & H1 & H2). exists w'. split; [right; auto|auto]. }
      destruct W as (w & W1 & [W2|[-> _]]); [exists w; exact W2|]. rewrite (contains_part invalid_val ":" ws W1) in E1. discriminate.
    - intros H. assert (W : exists ws, Forall2 (fun x w => In (x, w) (cl_labels cl p)) keys ws).
      { clear - H. induction keys as [|x ks IH]; [exists []; constructor|]. destruct (IH (fun y Hy => H y (or_intror Hy))) as (ws & F). destruct (H x (or_introl eq_refl)) as (w & Hw). exists (w :: ws). constructor; auto. }
      destruct W as (ws & F). exists (String.concat ":" ws).
      assert (C : carries cl k (String.concat ":" ws) p) by (exists ws; split; [|reflexivity]; clear - F; induction F; constructor; auto; left; auto).
      split; [|exact C]. apply smem_In. apply E2. apply filter_In. split.
      + rewrite <- En. apply complete_info. apply label_value; auto. exists ws. split; [|reflexivity]. clear - F Hp. unfold joint. induction F as [|x w ks ws H F IH]; constructor; auto. split; auto.
      + rewrite hash_free; [reflexivity|]. clear - F Hp LT. induction F as [|x w ks ws H F IH]; constructor; auto. apply (LT p x w Hp H). }
  split; [intros p Hp H; apply X; auto|]. split; [|intros _ p Hp H; apply X; auto]. intros p Hp H. apply X in H as (v & Hv & C); auto. apply (carried_within p v); auto. apply ns_pod in Hp. apply Hp.
Qed.
Lemma says_box : forall e, (forall p, In p (ns_pods cl ci n) -> (holds (cl_labels cl p) e <-> within p)) ->
  same_texts vs (filter (fun v => negb (contains_str invalid_val v)) (values_in ci k n)) && (1 <? List.length (filter (fun v => negb (contains_str invalid_val v)) (values_in ci k n))) = false -> says e.
Proof using LP LT Hk Nv G.
  intros e He E. split; [intros p Hp (v & Hv & C); apply He; auto; apply (carried_within p v); auto; apply ns_pod in Hp; apply Hp|]. split; [intros p Hp H; apply He; auto|].
  intros A p Hp H. apply He in H; auto.
  assert (Val : forall v, In v vs -> exists q, In q (ns_pods cl ci n) /\ Forall2 (fun x w => In (x, w) (cl_labels cl q)) keys (split ":" v)).
  { intros v Hv. destruct (value_parts v Hv) as (q & Hq & En & J). assert (Nq : In q (ns_pods cl ci n)) by (apply ns_pod; auto). exists q. split; auto.
    assert (C : carries cl k v q). { exists (split ":" v). split; [exact (joint_carries _ _ _ _ _ J)|]. destruct (G v Hv) as (q' & H1 & _). apply label_value in H1 as (ws & J' & ->); auto. destruct (joint_free _ _ _ _ _ LP J') as [L F]. rewrite concat_split; auto. intros ->. pose proof (TextFacts.split_ne ":" k). destruct (split ":" k); [congruence|discriminate]. }
    pose proof (proj1 (A q Nq) (ex_intro _ v (conj Hv C))) as Al. clear - J Al LP Hq. unfold joint in J. induction J as [|x w ks ws Hx J IH]; constructor; [|apply IH; intros y Hy; apply Al; right; auto].
    destruct Hx as [_ [Hx|(-> & Hx & _)]]; [exact Hx|]. destruct (Al x (or_introl eq_refl)) as (w & Hw). destruct (Hx w Hw). }
  set (av := filter (fun v => negb (contains_str invalid_val v)) (values_in ci k n)) in *.
  assert (Sub : forall v, In v vs -> In v av).
  { intros v Hv. destruct (Val v Hv) as (q & Nq & F). apply ns_pod in Nq as [Hq En]. destruct (G v Hv) as (q' & H1 & H2). apply ns_pod in H2 as [H2 H3]. apply filter_In. split; [rewrite <- H3; apply complete_info; exact H1|].
    apply label_value in H1 as (ws & J' & ->); auto. destruct (joint_free _ _ _ _ _ LP J') as [L Fr]. rewrite concat_split in F; [|intros ->; pose proof (TextFacts.split_ne ":" k); destruct (split ":" k); [congruence|discriminate]|auto].
    rewrite hash_free; [reflexivity|]. clear - F Hq LT. induction F as [|x w ks ws H F IH]; constructor; auto. apply (LT q x w Hq H). }
  assert (Sup : forall v, In v av -> In v vs).
  { intros v Hv. apply filter_In in Hv as [Hv1 Hv2]. apply negb_true_iff in Hv2. apply values_sound in Hv1. unfold sound_at in Hv1.
    assert (Q : exists q ws, In q (ns_pods cl ci n) /\ Forall2 (fun x w => In (x, w) (cl_labels cl q)) keys ws /\ v = String.concat ":" ws).
    { destruct (has_colon k) eqn:Ck.
      - destruct Hv1 as (q & Hq & En & ws & F & ->). exists q, ws. split; [apply ns_pod; auto|]. split; [|reflexivity].
        assert (Ni : ~ In invalid_val ws) by (intros X; rewrite (contains_part _ ":" _ X) in Hv2; discriminate). clear - F Ni. induction F as [|x w ks ws H F IH]; constructor; [|apply IH; intros X; apply Ni; right; auto].
        destruct H as [H|[-> _]]; [exact H|]. destruct Ni. left. auto.
      - destruct Hv1 as [->|(q & Hq & En & Hl)]; [exfalso; clear - Hv2; discriminate|]. exists q, [v]. split; [apply ns_pod; auto|]. rewrite (split_simple k Ck). split; [constructor; [exact Hl|constructor]|reflexivity]. }
    destruct Q as (q & ws & Nq & F & ->). destruct (proj2 (A q Nq)) as (v' & Hv' & ws' & F' & ->).
    { intros x Hx. clear - F Hx. induction F as [|y w ks ws H F IH]; [destruct Hx|]. destruct Hx as [->|Hx]; [exists w; exact H|auto]. }
    replace ws with ws'; [exact Hv'|]. clear - F F' LP Nq. apply ns_pod in Nq as [Hq _]. revert ws' F'. induction F as [|x w ks ws H F IH]; intros ws' F'; inversion F' as [|? w' ? ws'' H' F'']; subst; [reflexivity|]. f_equal; [|auto].
    destruct H' as [H'|[-> H']]; [exact (label_once q x w' w Hq H' H)|destruct (H' w H)]. }
  assert (One : List.length av <= 1).
  { destruct (1 <? List.length av) eqn:L; [|apply Nat.ltb_ge in L; exact L]. rewrite andb_true_r in E. exfalso. assert (T : same_texts vs av = true); [|congruence].
    unfold same_texts. apply andb_true_iff. split; apply forallb_forall; intros v Hv; apply smem_In; auto. }
  assert (Uniq : forall v w, In v vs -> In w vs -> v = w). { intros v w Hv Hw. apply Sub in Hv, Hw. destruct av as [|a [|b t]]; [destruct Hv| |cbn in One; lia]. destruct Hv as [<-|[]], Hw as [<-|[]]. reflexivity. }
  destruct vs as [|v0 vt] eqn:Ev; [congruence|]. rewrite <- Ev in *. assert (Hv0 : In v0 vs) by (rewrite Ev; left; auto). exists v0. split; [exact Hv0|].
  destruct (Val v0 Hv0) as (q & Nq & F). exists (split ":" v0). split.
  - assert (L : List.length keys = List.length (split ":" v0)) by (clear - F; induction F; cbn; congruence).
    assert (W : forall i x, nth_error keys i = Some x -> exists w, nth_error (split ":" v0) i = Some w /\ carries1 cl p x w). { intros i x Hx. destruct (H i x Hx) as (v & w & H1 & H2 & H3). rewrite (Uniq v v0 H1 Hv0) in H2. exists w. auto. }
    clear - L W. revert L W. generalize (split ":" v0). induction keys as [|x ks IH]; intros [|w ws] L W; try discriminate; constructor.
    + destruct (W 0 x eq_refl) as (w' & H1 & H2). cbn in H1. congruence.
    + apply IH; [cbn in L; congruence|]. intros i y Hy. exact (W (S i) y Hy).
  - destruct (G v0 Hv0) as (q' & H1 & _). apply label_value in H1 as (ws & J' & E'); auto. rewrite E'. destruct (joint_free _ _ _ _ _ LP J') as [L Fr]. rewrite concat_split; auto. intros ->. pose proof (TextFacts.split_ne ":" k). destruct (split ":" k); [congruence|discriminate].
Qed.
Theorem label_reads : exists s e, label_text ci k vs n = Some s /\ read_expr s = Some e /\ says e.
Proof using LP LT Hk Nv G.
  unfold label_text, label_expr_text. destruct (same_texts vs _ && _) eqn:E.
  - apply andb_true_iff in E as [E _]. unfold all_valid_text.
    (* The keys are sorted before "has(...)" is put around them; the clauses are read in that order. *)
    assert (J : exists e, read_expr (String.concat " and " (map (fun x => "has(" ++ x ++ ")")%string (sort_texts keys))) = Some e /\ forall ls, holds ls e <-> forall x, In x keys -> exists w, In (x, w) ls).
    { assert (F : Forall2 reads_clause (map (fun x => "has(" ++ x ++ ")")%string (sort_texts keys)) (map Has (sort_texts keys))).
      { assert (Pl : forall x, In x (sort_texts keys) -> plain x) by (intros x Hx; apply (proj1 (sort_In _ _)) in Hx; destruct (key_parts x Hx) as ([_ Px] & _); exact Px).
        clear - Pl. induction (sort_texts keys) as [|x l IH]; constructor; [|apply IH; intros y Hy; apply Pl; right; auto]. assert (Px : plain x) by (apply Pl; left; auto). apply clause_of; [brace|]. apply either_one. apply atom_has. exact Px. }
      destruct (join_reads _ _ F) with (fuel := String.length (String.concat " and " (map (fun x => "has(" ++ x ++ ")")%string (sort_texts keys)))) as (f & Rf & Sf).
      - intros X. apply map_eq_nil in X. pose proof (TextFacts.split_ne ":" k) as N. pose proof (sort_length keys) as L. rewrite X in L. destruct (split ":" k); [congruence|discriminate].
      - apply join_length.
      - exists f. split; [unfold read_expr; rewrite Rf; reflexivity|]. intros ls. rewrite Sf, Forall_map, Forall_forall. cbn [holds]. split; intros H x Hx; apply H; apply sort_In; exact Hx. }
    destruct J as (e & R & S). eexists _, e. split; [reflexivity|]. split; [exact R|]. apply says_all; auto.
  - set (f := fun ix : nat * string => match values_at vs (fst ix) with Some l => Some (simple_text (snd ix) (values_in ci (snd ix) n) l) | None => None end).
    assert (P : forall i x, nth_error keys i = Some x -> exists l e, f (i, x) = Some (simple_text x (values_in ci x n) l) /\
      reads_clause (simple_text x (values_in ci x n) l) e /\ reads_clause (remove_char "}" (remove_char "{" (simple_text x (values_in ci x n) l))) e /\
      forall p, In p (ns_pods cl ci n) -> (holds (cl_labels cl p) e <-> exists v w, In v vs /\ nth_error (split ":" v) i = Some w /\ carries1 cl p x w)).
    { intros i x Hx. assert (Hin : In x keys) by (apply nth_error_In in Hx; exact Hx). destruct (key_parts x Hin) as (K & Cx & Fx & Ky).
      assert (Part : forall v, In v vs -> exists w q, nth_error (split ":" v) i = Some w /\ value1 cl pods x w q).
      { intros v Hv. destruct (value_parts v Hv) as (q & _ & _ & J). clear - J Hx. revert i Hx. unfold joint in J. induction J as [|y w ks ws H J IH]; intros [|i] Hx; try discriminate; cbn [nth_error] in *; [injection Hx as ->; exists w, q; auto|apply IH; exact Hx]. }
      destruct (values_at_spec vs i) as (l & El & Sl). { intros v Hv X. destruct (Part v Hv) as (w & q & H & _). congruence. }
      assert (Nl : l <> []). { destruct vs as [|v t] eqn:Ev; [congruence|]. rewrite <- Ev in *. assert (Hv : In v vs) by (rewrite Ev; left; auto). destruct (Part v Hv) as (w & q & H & _). intros X. assert (Y : In w l) by (apply Sl; exists v; auto). rewrite X in Y. destruct Y. }
      destruct (simple_reads x (values_in ci x n) l K) as (e & R1 & R2 & S).
      { unfold colon_free. rewrite <- has_colon_char. exact Cx. }
      { exact Nl. }
      { intros w [Hw|Hw].
        - apply Sl in Hw as (v & Hv & Hw). destruct (Part v Hv) as (w' & q & H & Hq). assert (w' = w) by congruence. subst w'. destruct (value1_plain _ _ _ Hq) as (_ & H' & _). exact H'.
        - apply values_sound in Hw. unfold sound_at in Hw. rewrite Cx in Hw. destruct Hw as [->|(q & Hq & _ & Hl)]; [auto|]. right. apply (LT q x w Hq Hl). }
      exists l, e. split; [unfold f; cbn [fst snd]; rewrite El; reflexivity|]. split; [exact R1|]. split; [exact R2|]. intros p Hp. apply ns_pod in Hp as [Hp En]. rewrite S, simple_meaning by auto. split.
      - intros (w & Hw & C). apply Sl in Hw as (v & Hv & Hw). exists v, w. auto.
      - intros (v & w & Hv & Hw & C). exists w. split; [apply Sl; exists v; auto|exact C]. }
    destruct (mapM_all _ _ f (combine (seq 0 (List.length keys)) keys)) as (es & Ees & Fes). { intros [i x] H. apply combine_nth in H. destruct (P i x H) as (l & e & H1 & _). eauto. }
    fold f. rewrite Ees.
    assert (Mem : forall s, In s es <-> exists i x, nth_error keys i = Some x /\ f (i, x) = Some s).
    { intros s. assert (Z : In s es <-> exists ix, In ix (combine (seq 0 (List.length keys)) keys) /\ f ix = Some s).
      { clear - Fes. induction Fes as [|ix y l r Hy F IH]; cbn [In]; [split; [intros []|intros (ix & [] & _)]|]. rewrite IH. split; [intros [->|(jx & H1 & H2)]; eauto|intros (jx & [<-|H1] & H2); [left; congruence|eauto]]. }
      rewrite Z. split; [intros ([i x] & H1 & H2); exists i, x; split; auto; apply combine_nth; auto|intros (i & x & H1 & H2); exists (i, x); split; auto; apply combine_nth; auto]. }
    assert (Len : List.length es = List.length keys). { assert (Z : List.length es = List.length (combine (seq 0 (List.length keys)) keys)) by (clear - Fes; induction Fes; cbn; congruence). rewrite Z, combine_length, seq_length. lia. }
    assert (Many : exists e, read_expr (String.concat " and " (sort_texts es)) = Some e /\ says e).
    { destruct (sorted_reads es) as (e & R & S).
      - intros X. rewrite X in Len. pose proof (TextFacts.split_ne ":" k). destruct (split ":" k); [congruence|discriminate].
      - intros s Hs. apply Mem in Hs as (i & x & H1 & H2). destruct (P i x H1) as (l & e & H3 & H4 & _). exists e. rewrite H3 in H2. injection H2 as <-. exact H4.
      - exists e. split; [exact R|]. apply says_box; [|exact E]. intros p Hp. rewrite S. split.
        + intros H i x Hx. destruct (P i x Hx) as (l & f' & H1 & H2 & _ & H4). apply H4; auto. apply (H (simple_text x (values_in ci x n) l) f'); [apply Mem; exists i, x; split; [exact Hx|exact H1]|exact H2].
        + intros H s g Hs Hg. apply Mem in Hs as (i & x & H1 & H2). destruct (P i x H1) as (l & f' & H3 & H4 & _ & H5). rewrite H3 in H2. injection H2 as <-. rewrite (clause_fun _ _ _ Hg H4). apply H5; auto. }
    destruct Many as (e & R & S). destruct es as [|s0 [|s1 t]].
    + eexists _, e. split; [reflexivity|]. split; [exact R|exact S].
    + (* one simple key: the braces are removed *)
      destruct (proj1 (Mem s0) (or_introl eq_refl)) as (i & x & H1 & H2). destruct (P i x H1) as (l & g & H3 & H4 & H5 & _). rewrite H3 in H2. injection H2 as H2. rewrite <- H2 in *.
      exists (remove_char "}" (remove_char "{" (simple_text x (values_in ci x n) l))), g. split; [reflexivity|].
      split; [apply read_one; exact H5|].
      assert (Eg : e = g). { cbn [sort_texts fold_right insert_text String.concat] in R. rewrite (read_one _ _ H4) in R. congruence. }
      rewrite <- Eg. exact S.
    + eexists _, e. split; [reflexivity|]. split; [exact R|exact S].
Qed.
End Element.
End Meaning.
