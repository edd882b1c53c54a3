(** * Facts about ports, protocols, methods and their text. *)
From Coq Require Import ZArith List Bool String Ascii Lia ZifyBool FinFun.
From Verif Require Import IntervalModel IntervalFacts TextModel TextFacts PortProtoModel.
Import ListNotations.
Local Open Scope string_scope.
Local Open Scope Z_scope.

(** ** iset_repr is the comma-joined list of items *)
Lemma drop_last_snoc s c : drop_last (s ++ String c "") = s.
Proof.
  induction s as [|a s IH]; simpl; auto. rewrite IH.
  destruct (s ++ String c "") eqn:E; auto. destruct s; discriminate.
Qed.

Lemma repr_fold l i acc :
  fold_left (fun res i => res ++ ivl_text i ++ ",") (i :: l) acc = acc ++ join "," (map ivl_text (i :: l)) ++ ",".
Proof.
  revert i acc. induction l as [|j l IH]; intros i acc; [reflexivity|].
  cbn [fold_left] in *. rewrite IH.
  change (join "," (map ivl_text (i :: j :: l))) with (ivl_text i ++ "," ++ join "," (map ivl_text (j :: l))).
  rewrite !app_assoc_s. reflexivity.
Qed.

Lemma iset_repr_join l : l <> [] -> iset_repr l = join "," (map ivl_text l).
Proof.
  destruct l as [|i l]; [congruence|]. intros _. unfold iset_repr. rewrite repr_fold.
  cbn [append]. apply drop_last_snoc.
Qed.

Lemma ivl_text_nocomma i : 0 <= lo i -> 0 <= hi i -> has_char "," (ivl_text i) = false.
Proof.
  intros H1 H2. destruct (str_of_Z_digits (lo i) H1) as [D1 _], (str_of_Z_digits (hi i) H2) as [D2 _].
  unfold ivl_text. rewrite has_char_app, (digits_nochar _ _ D1) by reflexivity.
  destruct (lo i =? hi i); [reflexivity|]. cbn. apply digits_nochar; auto.
Qed.

(** ** Python sets of strings *)
Lemma smem_In x s : smem x s = true <-> In x s.
Proof.
  unfold smem. rewrite existsb_exists. split.
  - intros [y [H E]]. apply String.eqb_eq in E. subst; auto.
  - intro H. exists x. split; auto. apply String.eqb_refl.
Qed.
Lemma smem_false x s : smem x s = false <-> ~ In x s.
Proof. rewrite <- smem_In. destruct (smem x s); split; congruence. Qed.
Lemma sadd_In x y s : In y (sadd x s) <-> y = x \/ In y s.
Proof.
  unfold sadd. destruct (smem x s) eqn:E.
  - apply smem_In in E. split; [auto|]. intros [->|]; auto.
  - rewrite in_app_iff. simpl. intuition.
Qed.
Lemma sdiscard_In x y s : In y (sdiscard x s) <-> y <> x /\ In y s.
Proof.
  unfold sdiscard. rewrite filter_In, negb_true_iff, String.eqb_neq. intuition.
Qed.
Lemma sunion_In t : forall s y, In y (sunion s t) <-> In y s \/ In y t.
Proof.
  induction t as [|x t IH]; intros s y; simpl; [tauto|]. unfold sunion in *. simpl. rewrite IH, sadd_In. intuition.
Qed.
Lemma sminus_In s t y : In y (sminus s t) <-> In y s /\ ~ In y t.
Proof. unfold sminus. rewrite filter_In, negb_true_iff, smem_false. tauto. Qed.
Lemma sset_eqb_iff s t : sset_eqb s t = true <-> forall x, In x s <-> In x t.
Proof.
  unfold sset_eqb. rewrite andb_true_iff, !forallb_forall. setoid_rewrite smem_In. firstorder.
Qed.

(** ** Elements of an interval set *)
Lemma zrange_In a b x : In x (zrange a b) <-> a <= x <= b.
Proof.
  unfold zrange. rewrite in_map_iff. split.
  - intros [k [<- H]]. apply in_seq in H. lia.
  - intros H. exists (Z.to_nat (x - a)). rewrite in_seq. lia.
Qed.
Lemma zrange_NoDup a b : NoDup (zrange a b).
Proof.
  unfold zrange. apply FinFun.Injective_map_NoDup; [|apply seq_NoDup]. intros i j H. lia.
Qed.
Definition elems (l : iset) : list Z := flat_map (fun i => zrange (lo i) (hi i)) l.
Lemma elems_mem l x : In x (elems l) <-> mem x l.
Proof.
  unfold elems, mem. rewrite in_flat_map. split; intros [i [H1 H2]]; exists i; split; auto; apply zrange_In; auto.
Qed.
Lemma elems_NoDup l : canonical l -> NoDup (elems l).
Proof.
  intro C. apply canonical_from in C as [b C]. revert b C. induction l as [|i l IH]; intros b C; simpl; [constructor|].
  destruct C as [C1 [C2 C3]]. specialize (IH _ C3).
  assert (H : forall x, In x (zrange (lo i) (hi i)) -> ~ In x (elems l)).
  { intros x Hx Hl. apply zrange_In in Hx. apply elems_mem in Hl. apply (canon_from_mem _ _ _ C3) in Hl. lia. }
  revert H IH. generalize (zrange_NoDup (lo i) (hi i)). generalize (zrange (lo i) (hi i)) as a. fold (elems l).
  induction a as [|y a IHa]; simpl; intros N H IH; auto. inversion N; subst. constructor; auto.
  rewrite in_app_iff. intros [Hy|Hy]; auto. apply (H y); auto.
Qed.
Lemma mapM_map {A B} (f : A -> option B) g l : (forall x, In x l -> f x = Some (g x)) -> mapM f l = Some (map g l).
Proof.
  induction l as [|x l IH]; simpl; intros H; auto. rewrite H by auto. cbn [bind]. rewrite IH by auto. reflexivity.
Qed.
Lemma names_elems {B} (f : Z -> option B) (g : Z -> B) (ok : ivl -> bool) l :
  (forall i, In i l -> ok i = true) -> (forall x, mem x l -> f x = Some (g x)) ->
  bind (mapM (fun i => if negb (ok i) then None else mapM f (zrange (lo i) (hi i))) l)
       (fun ls => Some (List.concat ls)) = Some (map g (elems l)).
Proof.
  intros H1 H2. rewrite (mapM_map _ (fun i => map g (zrange (lo i) (hi i)))).
  - cbn [bind]. f_equal. unfold elems. rewrite flat_map_concat_map, concat_map, map_map. reflexivity.
  - intros i Hi. rewrite H1 by auto. cbn [negb]. apply mapM_map. intros x Hx. apply zrange_In in Hx.
    apply H2. exists i; auto.
Qed.

(** ** Protocol names *)
Definition pname (n : Z) : string :=
  match assoc_z n number_to_name with Some s => s | None => str_of_Z n end.
Lemma get_protocol_name_eq n : 0 <= n <= 255 -> get_protocol_name n = Some (pname n).
Proof.
  intros H. unfold get_protocol_name, is_valid_protocol, pname. replace ((n >=? 0) && (n <=? 255)) with true by lia.
  cbn [negb]. destruct (assoc_z n number_to_name); auto.
Qed.
Definition clean (s : string) : bool :=
  negb (has_char "," s) && negb (has_char " " s) && negb (String.eqb s "*") && negb (String.eqb s "Empty") &&
  negb (String.eqb s "").
Lemma pname_table :
  forallb (fun n => clean (pname n) &&
                    match get_protocol_number (ProtoName (pname n)) with Some m => m =? n | None => false end)
          (zrange 0 255) = true.
Proof. vm_compute. reflexivity. Qed.
Lemma pname_clean n : 0 <= n <= 255 -> clean (pname n) = true.
Proof.
  intros H. pose proof pname_table as T. rewrite forallb_forall in T. specialize (T n).
  rewrite zrange_In in T. apply T in H. apply andb_true_iff in H as [H _]. auto.
Qed.
Lemma pname_number n : 0 <= n <= 255 -> get_protocol_number (ProtoName (pname n)) = Some n.
Proof.
  intros H. pose proof pname_table as T. rewrite forallb_forall in T. specialize (T n).
  rewrite zrange_In in T. apply T in H. apply andb_true_iff in H as [_ H].
  destruct (get_protocol_number (ProtoName (pname n))); [|discriminate]. f_equal. lia.
Qed.
Lemma pname_inj a b : 0 <= a <= 255 -> 0 <= b <= 255 -> pname a = pname b -> a = b.
Proof. intros A B E. pose proof (pname_number a A). pose proof (pname_number b B). congruence. Qed.

(** ** Method names *)
Definition mname (n : Z) : string := nth (Z.to_nat n) all_methods "".
Lemma mname_table :
  forallb (fun n => clean (mname n) && match index_of (mname n) all_methods with Some m => m =? n | None => false end &&
                    match py_nth all_methods n with Some s => String.eqb s (mname n) | None => false end)
          (zrange 0 8) = true.
Proof. vm_compute. reflexivity. Qed.
Lemma mname_ok n : 0 <= n <= 8 ->
  clean (mname n) = true /\ index_of (mname n) all_methods = Some n /\ py_nth all_methods n = Some (mname n).
Proof.
  intros H. pose proof mname_table as T. rewrite forallb_forall in T. specialize (T n).
  rewrite zrange_In in T. apply T in H. apply andb_true_iff in H as [H H3]. apply andb_true_iff in H as [H1 H2].
  split; auto. split.
  - destruct (index_of (mname n) all_methods); [|discriminate]. f_equal. lia.
  - destruct (py_nth all_methods n); [|discriminate]. apply String.eqb_eq in H3. congruence.
Qed.
Lemma mname_inj a b : 0 <= a <= 8 -> 0 <= b <= 8 -> mname a = mname b -> a = b.
Proof. intros A B E. pose proof (mname_ok a A). pose proof (mname_ok b B). intuition congruence. Qed.

(** ** Lists of names and the joined text *)
Definition strip (s : string) : string := match s with String " " t => t | _ => s end.
Definition parts (s : string) : list string := map strip (split "," s).
Lemma clean_inv s : clean s = true ->
  has_char "," s = false /\ has_char " " s = false /\ s <> "*" /\ s <> "Empty" /\ s <> "".
Proof.
  unfold clean. rewrite !andb_true_iff, !negb_true_iff, !String.eqb_neq. tauto.
Qed.
Lemma strip_clean s : clean s = true -> strip s = s.
Proof.
  intros C. apply clean_inv in C as (_ & C & _). destruct s as [|a s]; auto. simpl in C.
  apply orb_false_iff in C as [C _]. simpl. destruct (Ascii.eqb_spec a " "); [discriminate|].
  destruct a as [[] [] [] [] [] [] [] []]; auto. congruence.
Qed.
Lemma strip_sp s : strip (" " ++ s) = s.
Proof. reflexivity. Qed.
Lemma parts_join l : l <> [] -> Forall (fun s => clean s = true) l -> parts (join ", " l) = l.
Proof.
  intros NE F. unfold parts.
  assert (H : split "," (join ", " l) = match l with [] => [""] | x :: t => x :: map (fun s => " " ++ s) t end).
  { clear NE. induction l as [|x l IH]; [reflexivity|]. inversion F; subst.
    destruct (clean_inv _ H1) as (Hc & _). destruct l as [|y l]; [apply split_nochar; auto|].
    change (join ", " (x :: y :: l)) with (x ++ String "," (String " " (join ", " (y :: l)))).
    rewrite split_app_char by auto. specialize (IH H2). cbn [split]. 
    change (Ascii.eqb " " ",") with false. rewrite IH. reflexivity. }
  rewrite H. destruct l as [|x t]; [congruence|]. inversion F; subst. cbn [map]. f_equal; [apply strip_clean; auto|].
  rewrite map_map. rewrite <- (map_id t) at 2. apply map_ext. intro. reflexivity.
Qed.

Lemma prefix_split p s : prefix p s = true -> exists r, s = p ++ r.
Proof.
  revert s. induction p as [|a p IH]; intros s H; [exists s; reflexivity|].
  destruct s as [|b s]; [discriminate|]. simpl in H. destruct (ascii_dec a b); [|discriminate]. subst.
  destruct (IH s H) as [r ->]. exists r. reflexivity.
Qed.
Lemma split_head c s t : has_char c s = false -> hd "" (split c (s ++ t)) = s ++ hd "" (split c t).
Proof.
  induction s as [|a s IH]; simpl; auto. intros H. apply orb_false_iff in H as [H1 H2]. rewrite H1.
  specialize (IH H2). pose proof (split_ne c (s ++ t)) as N. destruct (split c (s ++ t)); [congruence|].
  simpl in *. congruence.
Qed.

(** A joined list of clean names is none of the special forms. *)
Lemma join_special l : Forall (fun s => clean s = true) l ->
  join ", " l <> "*" /\ join ", " l <> "Empty" /\ prefix "all but " (join ", " l) = false.
Proof.
  intros F. destruct l as [|x t]; [repeat split; discriminate|].
  assert (P : parts (join ", " (x :: t)) = x :: t) by (apply parts_join; auto; discriminate).
  inversion F; subst. destruct (clean_inv _ H1) as (C1 & C2 & C3 & C4 & C5). split; [|split].
  - intro E. rewrite E in P. injection P as P _. apply C3. rewrite <- P. reflexivity.
  - intro E. rewrite E in P. injection P as P _. apply C4. rewrite <- P. reflexivity.
  - destruct (prefix "all but " (join ", " (x :: t))) eqn:E; auto. exfalso. apply prefix_split in E as [r E].
    assert (H : hd "" (split "," (join ", " (x :: t))) = x).
    { destruct t as [|y t]; [rewrite split_nochar by auto; reflexivity|].
      change (join ", " (x :: y :: t)) with (x ++ String "," (String " " (join ", " (y :: t)))).
      rewrite split_app_char by auto. reflexivity. }
    rewrite E, split_head in H by reflexivity. rewrite <- H in C2. discriminate.
Qed.

Lemma prefix_app s t : prefix s (s ++ t) = true.
Proof. induction s as [|a s IH]; simpl; [destruct t; auto|]. destruct (ascii_dec a a); congruence. Qed.

(** ** Complement names of methods *)
Lemma list_remove_ok x l : NoDup l -> In x l ->
  list_remove x l = Some (filter (fun y => negb (String.eqb x y)) l).
Proof.
  induction l as [|y l IH]; [intros _ []|]. intros N H. inversion N; subst. cbn [list_remove filter].
  destruct (String.eqb_spec x y) as [E|E]; cbn [negb].
  - subst. f_equal. clear - H2. induction l as [|z l IH]; auto. cbn [filter].
    destruct (String.eqb_spec y z); [subst; exfalso; apply H2; simpl; auto|]. cbn [negb]. f_equal. apply IH.
    intro; apply H2; simpl; auto.
  - destruct H; [congruence|]. rewrite IH by auto. reflexivity.
Qed.
Lemma removes_ok ns : forall l, NoDup l -> NoDup ns -> (forall x, In x ns -> In x l) ->
  fold_left (fun acc m => bind acc (list_remove m)) ns (Some l) = Some (filter (fun y => negb (smem y ns)) l).
Proof.
  induction ns as [|x ns IH]; intros l Nl Nn H; cbn [fold_left].
  - f_equal. clear. induction l as [|y l IH]; auto. cbn [filter smem existsb negb]. f_equal. auto.
  - inversion Nn; subst. cbn [bind]. rewrite list_remove_ok by (auto; apply H; simpl; auto). rewrite IH; auto.
    + f_equal. clear. induction l as [|y l IH]; auto. cbn [filter].
      assert (E : smem y (x :: ns) = (String.eqb x y || smem y ns)%bool) by (rewrite String.eqb_sym; reflexivity).
      rewrite E. destruct (String.eqb x y); cbn [negb orb]; [exact IH|]. cbn [filter].
      destruct (smem y ns); cbn [negb]; [exact IH|]. f_equal. exact IH.
    + apply NoDup_filter; auto.
    + intros y Hy. apply filter_In. split; [apply H; simpl; auto|].
      destruct (String.eqb_spec x y); auto. subst. contradiction.
Qed.
