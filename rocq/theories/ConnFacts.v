(** * Facts about ConnModel.v *)
From Coq Require Import List Bool Arith Lia Permutation.
From Verif Require Import HyperModel HyperFacts HyperOps HyperDims HyperTop HyperContain ConnModel PropHyperCube.
Import ListNotations.

Lemma mem_dim_In d l : mem_dim d l = true <-> In d l.
Proof.
  unfold mem_dim. rewrite existsb_exists. split.
  - intros [x [H E]]. apply Nat.eqb_eq in E. subst. auto.
  - intro H. exists d. rewrite Nat.eqb_refl. auto.
Qed.

Lemma index_of_spec l d : In d l -> exists i, index_of l d = Some i /\ nth_error l i = Some d /\ i < length l.
Proof.
  induction l as [|x t IH]; intros H; [destruct H|]. cbn [index_of].
  destruct (Nat.eqb_spec x d) as [->|N].
  - exists 0. simpl. repeat split; auto. lia.
  - destruct H as [H|H]; [congruence|]. destruct (IH H) as [i [E [F G]]]. exists (S i). rewrite E. simpl.
    repeat split; auto. lia.
Qed.

Lemma seqM_map {A B} (f : A -> option B) (g : A -> B) l : (forall x, In x l -> f x = Some (g x)) ->
  seqM (map f l) = Some (map g l).
Proof.
  induction l as [|x l IH]; intros H; auto. cbn [map seqM]. rewrite (H x) by (simpl; auto).
  rewrite IH; auto. intros y Hy. apply H. simpl; auto.
Qed.

Lemma seqM_some {A B} (f : A -> option B) l r : seqM (map f l) = Some r ->
  length r = length l /\ (forall i x, nth_error l i = Some x -> f x = nth_error r i) /\
  (forall y, In y r <-> exists x, In x l /\ f x = Some y).
Proof.
  revert r. induction l as [|x l IH]; intros r E; cbn [map seqM] in E.
  - injection E as <-. split; auto. split.
    + intros [|i] x; discriminate.
    + intro y. split; [intros []|intros [x [[] _]]].
  - destruct (f x) as [y|] eqn:Ex; [|discriminate]. destruct (seqM (map f l)) as [r'|]; [|discriminate].
    injection E as <-. destruct (IH r' eq_refl) as [A1 [A2 A3]]. split; [simpl; lia|]. split.
    + intros [|i] z; simpl; [intro H; injection H as <-; auto|apply A2].
    + intro z. simpl. rewrite A3. split.
      * intros [->|[w [H1 H2]]]; eauto.
      * intros [w [[->|H] H2]]; [left; congruence|right; eauto].
Qed.

(** Reordering a list by an exact index list. *)
Lemma reorder_list_spec {A} (l : list A) (m : list nat) r : length m = length l -> reorder_list l m = Some r ->
  length r = length l /\ forall i, i < length l -> exists j, nth_error m i = Some j /\ nth_error r i = nth_error l j.
Proof.
  intros Hl E. unfold reorder_list in E. destruct (seqM_some _ _ _ E) as [A1 [A2 _]]. rewrite seq_length in A1.
  split; auto. intros i Hi.
  assert (Hs : nth_error (seq 0 (length l)) i = Some i).
  { rewrite (nth_error_nth' _ 0) by (rewrite seq_length; auto). rewrite seq_nth by auto. reflexivity. }
  specialize (A2 i i Hs). destruct (nth_error m i) as [j|] eqn:Em.
  - exists j. auto.
  - apply nth_error_None in Em. lia.
Qed.

Section Facts.
Context {V P : Type} (O : vops V P) (vmem : P -> V -> Prop) (valid : dim -> V -> Prop)
        (L : vlaws O vmem valid).
Context (all : list dim) (N : NoDup all) (NE : all <> []).
Notation obj := (obj O vmem valid).
Notation denot := (denot vmem).
Notation cmem := (cmem vmem).
Notation cube_at := (cube_at O).
Notation in_space := (in_space O vmem).

Lemma cube_at_cons_eq d ds v k : cube_at (d :: ds) (v :: k) d = v.
Proof. unfold ConnModel.cube_at. simpl. rewrite Nat.eqb_refl. reflexivity. Qed.
Lemma cube_at_cons_ne e d ds v k : e <> d -> cube_at (e :: ds) (v :: k) d = cube_at ds k d.
Proof. intro H. unfold ConnModel.cube_at. simpl. destruct (Nat.eqb_spec e d); [congruence|]. reflexivity. Qed.

Lemma cube_at_in ds k d : length k = length ds -> In d ds -> In (d, cube_at ds k d) (combine ds k).
Proof.
  revert k. induction ds as [|e ds IH]; intros k Hl Hd; [destruct Hd|]. destruct k as [|v k]; [discriminate|].
  destruct (Nat.eq_dec e d) as [->|Ne].
  - rewrite cube_at_cons_eq. simpl; auto.
  - rewrite cube_at_cons_ne by auto. destruct Hd as [?|Hd]; [congruence|]. simpl. right. apply IH; auto.
Qed.

Lemma cmem_at ds p k : NoDup ds -> length k = length ds ->
  (cmem ds p k <-> forall d, In d ds -> vmem (p d) (cube_at ds k d)).
Proof.
  revert k. induction ds as [|e ds IH]; intros k Nd Hl; destruct k as [|v k]; try discriminate.
  - simpl. split; [intros _ d []|auto].
  - inversion Nd as [|? ? Ne Nd']; subst. cbn [HyperTop.cmem]. rewrite IH by auto. split.
    + intros [A B] d Hd. destruct (Nat.eq_dec e d) as [->|N1].
      * rewrite cube_at_cons_eq. auto.
      * rewrite cube_at_cons_ne by auto. destruct Hd as [?|Hd]; [congruence|auto].
    + intro H. split.
      * specialize (H e (or_introl eq_refl)). rewrite cube_at_cons_eq in H. auto.
      * intros d Hd. specialize (H d (or_intror Hd)). rewrite cube_at_cons_ne in H; auto. congruence.
Qed.

Lemma cube_at_nth ds k d i : NoDup ds -> length k = length ds -> nth_error ds i = Some d ->
  nth_error k i = Some (cube_at ds k d).
Proof.
  revert k i. induction ds as [|e ds IH]; intros k i Nd Hl Hi; [destruct i; discriminate|].
  destruct k as [|v k]; [discriminate|]. inversion Nd; subst. destruct i as [|i]; simpl in Hi.
  - injection Hi as ->. rewrite cube_at_cons_eq. reflexivity.
  - rewrite cube_at_cons_ne; [simpl; apply IH; auto|]. intros ->. apply nth_error_In in Hi. contradiction.
Qed.

Lemma find_none ds (k : list V) d : ~ In d ds -> find (fun q => Nat.eqb (fst q) d) (combine ds k) = None.
Proof.
  revert k. induction ds as [|e ds IH]; intros k H; auto. destruct k as [|v k]; auto. simpl.
  destruct (Nat.eqb_spec e d) as [->|Ne]; [simpl in H; tauto|]. apply IH. simpl in H; tauto.
Qed.

(** The cubes of an object that is not everything. *)
Lemma iter_cube st h : obj st all h -> is_all h = false ->
  NoDup (act_of h) /\ subseq (act_of h) all /\ act_of h <> [] /\
  (forall p, in_space p -> (denot h p <-> exists k, In k (iter_cubes O all h) /\
      forall d, In d (act_of h) -> vmem (p d) (cube_at (act_of h) k d))) /\
  (forall k, In k (iter_cubes O all h) -> length k = length (act_of h) /\
      forall d, In d (act_of h) -> valid d (cube_at (act_of h) k d) /\ exists x, vmem x (cube_at (act_of h) k d)) /\
  hlen h = length (iter_cubes O all h).
Proof.
  intros Oh I.
  assert (Sa : subseq (act_of h) all /\ act_of h <> []).
  { destruct (obj_cases _ _ _ _ _ _ Oh) as [E|[[B [_ [E [NEa S]]]]|Pr]].
    - rewrite E in I. discriminate.
    - auto.
    - destruct Pr as [A [B _]]. auto. }
  destruct Sa as [S NEa]. assert (Nd : NoDup (act_of h)) by (eapply subseq_nodup; eauto).
  destruct (iter_spec O vmem valid L st all h N Oh) as [I1 [I2 [_ I4]]].
  unfold iter_dims in I1, I2. rewrite I in I1, I2.
  split; auto. split; auto. split; auto. split; [|split]; auto.
  - intros p Hp. rewrite (I1 p Hp). split; intros [k [Hk M]]; exists k; split; auto; apply cmem_at in M || apply cmem_at; auto; apply I2; auto.
  - intros k Hk. destruct (I2 k Hk) as [Hl Fk]. split; auto. intros d Hd.
    pose proof (cube_at_in _ k d Hl Hd) as Hin. split.
    + destruct (obj_cases _ _ _ _ _ _ Oh) as [E|[[B [_ [E [_ _]]]]|Pr]].
      * rewrite E in I. discriminate.
      * exfalso. unfold iter_cubes in Hk. rewrite I in Hk. rewrite E in Hk. destruct (act_of h) as [|d0 ds]; [congruence|].
        rewrite cubes_node in Hk. destruct ds; destruct Hk.
      * unfold iter_cubes in Hk. rewrite I in Hk. destruct Pr as [_ [_ [G _]]].
        apply (tree_keys_valid O vmem valid st (act_of h) h k d _ NEa G Hk Hin).
    + rewrite Forall_forall in Fk. apply Fk. eapply in_combine_r; eauto.
Qed.

(** A point with given coordinates inside a cube. *)
Lemma cube_point st h k d x : obj st all h -> is_all h = false -> In k (iter_cubes O all h) -> In d (act_of h) ->
  vmem x (cube_at (act_of h) k d) ->
  exists p, in_space p /\ p d = x /\ forall e, In e (act_of h) -> vmem (p e) (cube_at (act_of h) k e).
Proof.
  intros Oh I Hk Hd Hx. destruct (iter_cube st h Oh I) as [Nd [S [_ [_ [K _]]]]]. destruct (K k Hk) as [Hl Kv].
  set (p := fun e => if Nat.eqb e d then x else
                     if mem_dim e (act_of h) then vrep O (cube_at (act_of h) k e) else vrep O (vdom O e)).
  exists p. assert (M : forall e, In e (act_of h) -> vmem (p e) (cube_at (act_of h) k e)).
  { intros e He. unfold p. destruct (Nat.eqb_spec e d) as [->|Ne]; auto.
    rewrite (proj2 (mem_dim_In _ _) He). destruct (Kv e He) as [V1 V2]. apply (L_rep _ _ _ L e); auto. }
  split; [|split; auto].
  - intro e. destruct (mem_dim e (act_of h)) eqn:Em.
    + apply mem_dim_In in Em. apply (L_sub_dom _ _ _ L e (cube_at (act_of h) k e)); auto. apply Kv; auto.
    + unfold p. destruct (Nat.eqb_spec e d) as [->|Ne].
      * exfalso. apply (proj2 (mem_dim_In _ _)) in Hd. congruence.
      * rewrite Em. apply (L_rep _ _ _ L e); [apply (L_dom _ _ _ L)|apply (L_dom_ne _ _ _ L)].
  - unfold p. rewrite Nat.eqb_refl. auto.
Qed.

(** ** Projection *)
Lemma project_fold (f : list V -> V) d ks init : valid d init -> (forall k, In k ks -> valid d (f k) /\ exists x, vmem x (f k)) ->
  (forall x, ~ vmem x init) \/ vbool O init = true ->
  let r := fold_left (fun res k => let v := f k in if vbool O v && vbool O res then vor O res v
                                                  else if vbool O v then v else res) ks init in
  valid d r /\ forall x, vmem x r <-> vmem x init \/ exists k, In k ks /\ vmem x (f k).
Proof.
  revert init. induction ks as [|k ks IH]; intros init Vi K D; cbn [fold_left].
  - split; auto. intro x. split; auto. intros [H|[k [[] _]]]. auto.
  - destruct (K k (or_introl eq_refl)) as [Vk NEk].
    assert (Bk : vbool O (f k) = true) by (apply (L_bool _ _ _ L d); auto). rewrite Bk. cbn [andb].
    destruct (vbool O init) eqn:Bi.
    + destruct (IH (vor O init (f k))) as [A B].
      * apply (L_or_valid _ _ _ L); auto.
      * intros k' Hk. apply K. simpl; auto.
      * right. apply (L_bool _ _ _ L d); [apply (L_or_valid _ _ _ L); auto|]. destruct NEk as [x Hx].
        exists x. apply (L_or _ _ _ L d); auto.
      * split; auto. intro x. rewrite B. rewrite (L_or _ _ _ L d) by auto. simpl. split.
        -- intros [[H|H]|[k' [H1 H2]]]; eauto.
        -- intros [H|[k' [[->|H1] H2]]]; eauto.
    + destruct D as [D|D]; [|discriminate]. destruct (IH (f k)) as [A B]; auto.
      * intros k' Hk. apply K. simpl; auto.
      * split; auto. intro x. rewrite B. simpl. split.
        -- intros [H|[k' [H1 H2]]]; eauto.
        -- intros [H|[k' [[->|H1] H2]]]; [destruct (D x H)|auto|eauto].
Qed.

Lemma project_spec st h d vempty : obj st all h -> hbool h = true ->
  valid d (vempty d) -> (forall x, ~ vmem x (vempty d)) ->
  valid d (project O vempty all h d) /\
  forall x, vmem x (project O vempty all h d) <-> exists p, in_space p /\ denot h p /\ p d = x.
Proof.
  intros Oh B Ve Ne. unfold project. destruct (mem_dim d (act_of h)) eqn:Em; cbn [negb].
  - apply mem_dim_In in Em. destruct (is_all h) eqn:I.
    { destruct h as [| |c a ls]; try discriminate; simpl in *; try contradiction. destruct a; [destruct Em|discriminate]. }
    destruct (iter_cube st h Oh I) as [Nd [S [NEa [I1 [I2 _]]]]].
    destruct (project_fold (fun k => cube_at (act_of h) k d) d (iter_cubes O all h) (vempty d)) as [A C]; auto.
    { intros k Hk. apply I2; auto. }
    split; auto. intro x. rewrite C. split.
    + intros [H|[k [Hk Hx]]]; [destruct (Ne x H)|].
      destruct (cube_point st h k d x Oh I Hk Em Hx) as [p [P1 [P2 P3]]]. exists p. split; auto. split; auto.
      apply I1; auto. exists k. auto.
    + intros [p [Hp [D <-]]]. apply I1 in D as [k [Hk M]]; auto. right. exists k. auto.
  - split; [apply (L_dom _ _ _ L)|]. intro x. split.
    + intro Hx. apply (hbool_spec O vmem valid L st all h N Oh) in B as [p [Hp D]].
      exists (upd p d x). split.
      * intro e. unfold upd. destruct (Nat.eqb_spec e d) as [->|]; auto.
      * split; [|unfold upd; rewrite Nat.eqb_refl; auto]. apply indom_upd_indep; auto.
        intro Hin. apply mem_dim_In in Hin. congruence.
    + intros [p [Hp [_ <-]]]. apply Hp.
Qed.
End Facts.

(** ** Reordering *)
Section Reorder.
Context {V P : Type} (O : vops V P) (vmem : P -> V -> Prop) (valid : dim -> V -> Prop)
        (L : vlaws O vmem valid).
Notation obj := (obj O vmem valid).
Notation denot := (denot vmem).
Notation cube_at := (cube_at O).
Notation in_space := (in_space O vmem).

Lemma combine_map {A B} (f : A -> B) l : combine l (map f l) = map (fun a => (a, f a)) l.
Proof. induction l; simpl; congruence. Qed.

Lemma add_cubes_spec na st (ks : list (list (dim * V))) : NoDup na -> na <> [] -> (st = true -> False) ->
  (forall k, In k ks -> good_cube valid na k) -> forall h, obj st na h ->
  obj st na (fold_left (add_cube O na) ks h) /\
  forall p, in_space p -> (denot (fold_left (add_cube O na) ks h) p <-> denot h p \/ exists k, In k ks /\ pt_in_cube vmem p k).
Proof.
  intros N NE Hst. induction ks as [|k ks IH]; intros G h Oh; cbn [fold_left].
  - split; auto. intros p Hp. split; auto. intros [H|[k [[] _]]]; auto.
  - assert (Gk : good_cube valid na k) by (apply G; simpl; auto).
    assert (A : obj st na (add_cube O na h k) /\
                forall p, in_space p -> (denot (add_cube O na h k) p <-> denot h p \/ pt_in_cube vmem p k)).
    { unfold add_cube. destruct k as [|q0 qt]; [destruct Gk; congruence|].
      destruct (cube_values O vmem valid L na _ Gk) as [E|[Hn E]]; rewrite E.
      - destruct (create_from_cube_spec O vmem valid L st na _ N NE (good_cube_ok _ _ _ Gk)) as [C1 [_ C2]].
        destruct (h_or_spec O vmem valid L st na _ _ N NE Oh C1) as [C [D F]].
        rewrite (obj_override O vmem valid na st) by auto. split; auto.
        intros p Hp. rewrite F, C2, pt_in_cube_iff by auto. tauto.
      - split; auto. intros p Hp. specialize (Hn p Hp). tauto. }
    destruct A as [A1 A2]. destruct (IH (fun k' H => G k' (or_intror H)) _ A1) as [B1 B2]. split; auto.
    intros p Hp. rewrite B2, A2 by auto. simpl. split.
    + intros [[H|H]|[k' [H1 H2]]]; eauto.
    + intros [H|[k' [[->|H1] H2]]]; eauto.
Qed.

Lemma by_order_subseq na a : subseq (by_order na a) na.
Proof. apply subseq_filter. Qed.
Lemma by_order_In na a d : In d (by_order na a) <-> In d na /\ In d a.
Proof. unfold by_order. rewrite filter_In, mem_dim_In. tauto. Qed.

Lemma fold_add_map na nact ks (h : hc V) :
  fold_left (fun r k => add_cube O na r (combine nact k)) ks h = fold_left (add_cube O na) (map (combine nact) ks) h.
Proof. revert h. induction ks; simpl; auto. Qed.

Lemma reorder_list_at (a nact : list dim) (k : list V) idx :
  NoDup a -> length k = length a -> length nact = length a -> (forall d, In d nact -> In d a) ->
  seqM (map (index_of a) nact) = Some idx ->
  reorder_list k (idx ++ skipn (length idx) (seq 0 (length a))) = Some (map (cube_at a k) nact).
Proof.
  intros Nd Hk Hn Sub E. destruct (seqM_some _ _ _ E) as [A1 [A2 _]].
  rewrite skipn_all2 by (rewrite seq_length; lia). rewrite app_nil_r.
  unfold reorder_list.
  assert (H : forall m n (na : list dim) (ix : list nat), length na = n ->
            (forall i d, nth_error na i = Some d -> In d a /\ index_of a d = nth_error ix (m + i)) ->
            seqM (map (fun i => match nth_error ix i with Some j => nth_error k j | None => None end) (seq m n)) =
            Some (map (cube_at a k) na)).
  { intros m n. revert m. induction n as [|n IH]; intros m na ix Hl Hi; destruct na as [|d na]; try discriminate; auto.
    cbn [seq map seqM]. destruct (Hi 0 d eq_refl) as [Hin Hix]. rewrite Nat.add_0_r in Hix. rewrite <- Hix.
    destruct (index_of_spec a d Hin) as [i [Ei [Ni Li]]]. rewrite Ei.
    rewrite (cube_at_nth O a k d i Nd Hk Ni).
    rewrite (IH (S m) na ix); auto. intros i' d' H'. destruct (Hi (S i') d' H') as [X1 X2]. split; auto.
    rewrite X2. f_equal. lia. }
  rewrite Hk, <- Hn. rewrite (H 0 (length nact) nact idx eq_refl); auto.
  intros i d Hd. split; [apply Sub; eapply nth_error_In; eauto|]. rewrite (A2 i d Hd). reflexivity.
Qed.

Lemma reorder_by_spec st all h m na : st = false -> NoDup all -> all <> [] -> obj st all h -> is_all h = false ->
  reorder_list all m = Some na -> Permutation na all ->
  exists h', reorder_by O all h m = Some (na, h') /\ obj st na h' /\
             forall p, in_space p -> (denot h' p <-> denot h p).
Proof.
  intros Hst N NE Oh I Em Pm. unfold reorder_by. rewrite Em.
  destruct (iter_cube O vmem valid L all N st h Oh I) as [Nd [S [NEa [I1 [I2 _]]]]].
  set (nact := by_order na (act_of h)).
  assert (Nna : NoDup na) by (eapply Permutation_NoDup; [symmetry; eauto|auto]).
  assert (NEna : na <> []) by (intros ->; apply Permutation_nil in Pm; auto).
  assert (In_nact : forall d, In d nact <-> In d (act_of h)).
  { intro d. unfold nact. rewrite by_order_In. split; [tauto|]. intro H. split; auto.
    eapply Permutation_in; [symmetry; eauto|]. eapply subseq_in; eauto. }
  assert (Nnact : NoDup nact) by (eapply subseq_nodup; [apply by_order_subseq|auto]).
  assert (Pn : Permutation nact (act_of h)) by (apply NoDup_Permutation; auto).
  assert (Ln : length nact = length (act_of h)) by (apply Permutation_length; auto).
  assert (NEn : nact <> []) by (intros E; rewrite E in Pn; apply Permutation_nil in Pn; auto).
  set (ix := fun d => match index_of (act_of h) d with Some i => i | None => 0 end).
  assert (Ei : seqM (map (index_of (act_of h)) nact) = Some (map ix nact)).
  { apply seqM_map. intros d Hd. destruct (index_of_spec (act_of h) d) as [i [E _]]; [apply In_nact; auto|].
    unfold ix. rewrite E. auto. }
  rewrite Ei.
  assert (Ek : seqM (map (fun k => reorder_list k (map ix nact ++ skipn (length (map ix nact)) (seq 0 (length (act_of h))))) (iter_cubes O all h))
             = Some (map (fun k => map (cube_at (act_of h) k) nact) (iter_cubes O all h))).
  { apply seqM_map. intros k Hk. destruct (I2 k Hk) as [Hl _]. apply reorder_list_at; auto. intros d Hd. apply In_nact; auto. }
  rewrite Ek. eexists. split; [reflexivity|]. rewrite fold_add_map.
  assert (Gk : forall c, In c (map (combine nact) (map (fun k => map (cube_at (act_of h) k) nact) (iter_cubes O all h))) ->
     exists k, In k (iter_cubes O all h) /\ c = map (fun d => (d, cube_at (act_of h) k d)) nact).
  { intros c Hc. apply in_map_iff in Hc as [k' [<- Hk']]. apply in_map_iff in Hk' as [k [<- Hk]].
    exists k. split; auto. apply combine_map. }
  assert (Hst' : st = true -> False) by congruence.
  destruct (add_cubes_spec na st (map (combine nact) (map (fun k => map (cube_at (act_of h) k) nact) (iter_cubes O all h))) Nna NEna Hst') with (h := @hempty V Conn na) as [A B].
  { intros c Hc. destruct (Gk c Hc) as [k [Hk ->]]. destruct (I2 k Hk) as [Hl Kv]. split; [|split].
    - destruct nact; [congruence|discriminate].
    - rewrite map_map. simpl. rewrite map_id. apply by_order_subseq.
    - intros d v Hin. apply in_map_iff in Hin as [e [E He]]. injection E as <- <-. apply Kv. apply In_nact; auto. }
  { apply hempty_obj; auto. intro E. congruence. }
  split; auto. intros p Hp. rewrite B by auto. rewrite I1 by auto. split.
  - intros [H|[c [Hc Hp']]]; [exfalso; revert H; apply empty_denot; auto|].
    destruct (Gk c Hc) as [k [Hk ->]]. exists k. split; auto. intros d Hd.
    apply Hp'. apply in_map_iff. exists d. split; auto. apply In_nact; auto.
  - intros [k [Hk M]]. right. exists (combine nact (map (cube_at (act_of h) k) nact)). split.
    + apply in_map. apply in_map_iff. eauto.
    + rewrite combine_map. intros d v Hin. apply in_map_iff in Hin as [e [E He]]. injection E as <- <-.
      apply M. apply In_nact; auto.
Qed.

Lemma list_set_length {A} (l : list A) i x : i < length l -> length (list_set l i x) = length l.
Proof. intro H. unfold list_set. rewrite app_length, firstn_length. cbn [length]. rewrite skipn_length. lia. Qed.

Lemma list_set_nth {A} (l : list A) i x j : i < length l ->
  nth_error (list_set l i x) j = if Nat.eqb j i then Some x else nth_error l j.
Proof.
  revert i j. induction l as [|a l IH]; intros i j H; [simpl in H; lia|].
  destruct i as [|i]; destruct j as [|j]; auto.
  cbn [list_set firstn skipn app nth_error Nat.eqb]. simpl in H. rewrite <- (IH i j) by lia. reflexivity.
Qed.

Lemma switch_perm all src dst i j : NoDup all -> index_of all src = Some i -> index_of all dst = Some j ->
  exists na, reorder_list all (list_set (list_set (seq 0 (length all)) i j) j i) = Some na /\ Permutation na all.
Proof.
  intros N Ei Ej.
  assert (Hin : forall d k, index_of all d = Some k -> In d all).
  { intros d. clear. induction all as [|x t IH]; simpl; [discriminate|]. intros k. destruct (Nat.eqb_spec x d); auto.
    destruct (index_of t d) eqn:E; [|discriminate]. intros _. right. eapply IH; eauto. }
  destruct (index_of_spec all src (Hin _ _ Ei)) as [i' [E1 [E2 E3]]]. rewrite Ei in E1. injection E1 as <-.
  destruct (index_of_spec all dst (Hin _ _ Ej)) as [j' [F1 [F2 F3]]]. rewrite Ej in F1. injection F1 as <-.
  set (f := fun x => if Nat.eqb x j then i else if Nat.eqb x i then j else x).
  assert (M : list_set (list_set (seq 0 (length all)) i j) j i = map f (seq 0 (length all))).
  { assert (Eq : forall (l1 l2 : list nat), (forall k, nth_error l1 k = nth_error l2 k) -> l1 = l2).
    { induction l1 as [|a l1 IH]; intros [|b l2] H; auto; try (specialize (H 0); discriminate).
      pose proof (H 0) as H0. simpl in H0. injection H0 as ->. f_equal. apply IH. intro k. apply (H (S k)). }
    apply Eq. intro k. rewrite !list_set_nth by (rewrite ?list_set_length; rewrite seq_length; auto).
    destruct (Nat.lt_ge_cases k (length all)) as [Hk|Hk].
    - assert (Hs : nth_error (seq 0 (length all)) k = Some k).
      { rewrite (nth_error_nth' _ 0) by (rewrite seq_length; auto). rewrite seq_nth by auto. reflexivity. }
      rewrite nth_error_map, Hs. simpl. unfold f. destruct (Nat.eqb k j), (Nat.eqb k i); auto.
    - rewrite nth_error_map. rewrite (proj2 (nth_error_None (seq 0 (length all)) k)) by (rewrite seq_length; auto).
      destruct (Nat.eqb_spec k j); [lia|]. destruct (Nat.eqb_spec k i); [lia|]. reflexivity. }
  rewrite M. unfold reorder_list.
  assert (Fb : forall x, x < length all -> f x < length all).
  { intros x Hx. unfold f. destruct (Nat.eqb x j); auto. destruct (Nat.eqb x i); auto. }
  exists (map (fun x => nth (f x) all 0) (seq 0 (length all))). split.
  - apply seqM_map. intros x Hx. apply in_seq in Hx.
    assert (Hs : nth_error (seq 0 (length all)) x = Some x).
    { rewrite (nth_error_nth' _ 0) by (rewrite seq_length; lia). rewrite seq_nth by lia. reflexivity. }
    rewrite nth_error_map, Hs. cbn [option_map]. apply nth_error_nth'. apply Fb. lia.
  - assert (Id : all = map (fun x => nth x all 0) (seq 0 (length all))).
    { clear. induction all as [|x t IH]; auto. cbn [length seq map nth]. f_equal.
      rewrite <- seq_shift, map_map. exact IH. }
    assert (Pf : Permutation (map f (seq 0 (length all))) (seq 0 (length all))).
    { assert (Finv : forall x, f (f x) = x).
      { intro x. unfold f. destruct (Nat.eqb_spec x j) as [->|A].
        - destruct (Nat.eqb_spec i j) as [->|B]; auto. rewrite Nat.eqb_refl. auto.
        - destruct (Nat.eqb_spec x i) as [->|B].
          + rewrite Nat.eqb_refl. auto.
          + destruct (Nat.eqb_spec x j); [congruence|]. destruct (Nat.eqb_spec x i); congruence. }
      apply NoDup_Permutation.
      - apply FinFun.Injective_map_NoDup; [|apply seq_NoDup]. intros x y E. rewrite <- (Finv x), <- (Finv y). congruence.
      - apply seq_NoDup.
      - intro x. rewrite in_map_iff. split.
        + intros [y [<- Hy]]. apply in_seq in Hy. apply in_seq. specialize (Fb y). lia.
        + intro Hx. exists (f x). split; auto. apply in_seq in Hx. apply in_seq. specialize (Fb x). lia. }
    rewrite Id at 2. rewrite <- (map_map f (fun x => nth x all 0)). apply Permutation_map. auto.
Qed.

Lemma reorder_switch_spec all h src dst : NoDup all -> In src all -> In dst all -> obj false all h -> is_all h = false ->
  exists na h', reorder_switch O all h src dst = Some (na, h') /\ Permutation na all /\ obj false na h' /\
             forall p, in_space p -> (denot h' p <-> denot h p).
Proof.
  intros N Hs Hd Oh I. unfold reorder_switch.
  destruct (index_of_spec all src Hs) as [i [Ei _]]. destruct (index_of_spec all dst Hd) as [j [Ej _]]. rewrite Ei, Ej.
  destruct (switch_perm all src dst i j N Ei Ej) as [na [E Pm]].
  assert (NE : all <> []) by (intros ->; destruct Hs).
  destruct (reorder_by_spec false all h _ na eq_refl N NE Oh I E Pm) as [h' [A [B C]]]. exists na, h'. auto.
Qed.

(** Everything cannot be reordered: IndexError. *)
Lemma reorder_all_fails all (h : hc V) src dst : all <> [] -> is_all h = true -> reorder_switch O all h src dst = None.
Proof.
  intros NE I. unfold reorder_switch. destruct (index_of all src) as [i|]; auto. destruct (index_of all dst) as [j|]; auto.
  unfold reorder_by. destruct (reorder_list all _) as [na|]; auto.
  assert (Ea : act_of h = []) by (unfold is_all in I; destruct (act_of h); [auto|discriminate]).
  assert (En : by_order na (act_of h) = []).
  { rewrite Ea. unfold by_order. induction na; simpl; auto. }
  rewrite En, Ea. cbn [map seqM length app seq skipn]. unfold iter_cubes. rewrite I. cbn [map seqM].
  destruct all as [|d t]; [congruence|]. reflexivity.
Qed.

(** ** make_props *)
Lemma make_props_spec all vempty c : NoDup all -> all <> [] -> (forall d, In d all -> valid d (c d)) ->
  (forall d, In d all -> valid d (vempty d) /\ forall x, ~ vmem x (vempty d)) ->
  obj false all (make_props O vempty all c) /\
  forall p, in_space p -> (denot (make_props O vempty all c) p <-> forall d, In d all -> vmem (p d) (c d)).
Proof.
  intros N NE Vc Ve. unfold make_props. destruct (ccube_is_empty O vempty all c) eqn:Ee.
  - split; [apply hempty_obj; auto; discriminate|]. intros p Hp. split.
    + intro H. exfalso. revert H. apply empty_denot; auto.
    + intro H. exfalso. unfold ccube_is_empty in Ee. apply existsb_exists in Ee as [d [Hd E]].
      destruct (Ve d Hd) as [V1 V2]. rewrite (L_eqb _ _ _ L d) in E by auto. apply (V2 (p d)). apply E. auto.
  - assert (M : forall p, in_space p -> ((forall d, In d all -> vmem (p d) (c d)) <-> pt_in_cube vmem p (ccube_ordered O all c))).
    { intros p Hp. unfold ccube_ordered, pt_in_cube. split.
      - intros H d v Hin. apply in_map_iff in Hin as [e [E He]]. injection E as <- <-. apply filter_In in He as [He _]. auto.
      - intros H d Hd. destruct (veqb O (c d) (vdom O d)) eqn:Eq.
        + rewrite (L_eqb _ _ _ L d) in Eq by (auto; apply (L_dom _ _ _ L)). apply Eq. apply Hp.
        + apply H. apply in_map_iff. exists d. split; auto. apply filter_In. rewrite Eq. auto. }
    destruct (ccube_ordered O all c) as [|q qs] eqn:Eo.
    + split; [apply hall_obj; discriminate|]. intros p Hp. rewrite M by auto. split; intros _; [|exact I].
      intros d v [].
    + destruct (add_cubes_spec all false [q :: qs] N NE) with (h := @hempty V Conn all) as [A B].
      * discriminate.
      * intros k [<-|[]]. rewrite <- Eo. unfold ccube_ordered. split; [|split].
        -- unfold ccube_ordered in Eo. rewrite Eo. discriminate.
        -- rewrite map_map. simpl. rewrite map_id. apply subseq_filter.
        -- intros d v Hin. apply in_map_iff in Hin as [e [E He]]. injection E as <- <-. apply filter_In in He as [He _]. auto.
      * apply hempty_obj; auto; discriminate.
      * cbn [fold_left] in A, B. split; auto. intros p Hp. rewrite B, M by auto. split.
        -- intros [H|[k [[<-|[]] H]]]; auto. exfalso. revert H. apply empty_denot; auto.
        -- intro H. right. exists (q :: qs). simpl; auto.
Qed.

(** ** are_auto_conns *)
Lemma auto_spec single all h src dst : NoDup all -> obj false all h -> src <> dst ->
  (forall d v, valid d v -> (single v = true <-> exists x, forall y, vmem y v <-> y = x)) ->
  (forall v, valid src v <-> valid dst v) ->
  (are_auto_conns O single all h src dst = true ->
     In src (act_of h) /\ In dst (act_of h) /\ forall p, in_space p -> denot h p -> p src = p dst) /\
  (In src (act_of h) -> In dst (act_of h) -> (forall p, in_space p -> denot h p -> p src = p dst) ->
     are_auto_conns O single all h src dst = true).
Proof.
  intros N Oh Ne Hs Hv. unfold are_auto_conns.
  destruct (mem_dim src (act_of h)) eqn:Es; destruct (mem_dim dst (act_of h)) eqn:Ed; cbn [andb negb];
    try (split; [discriminate|intros H1 H2 _; apply mem_dim_In in H1; apply mem_dim_In in H2; congruence]).
  apply mem_dim_In in Es. apply mem_dim_In in Ed.
  assert (I : is_all h = false).
  { unfold is_all. destruct (act_of h); [destruct Es|reflexivity]. }
  destruct (iter_cube O vmem valid L all N false h Oh I) as [Nd [S [NEa [I1 [I2 _]]]]].
  split.
  - intro F. split; auto. split; auto. intros p Hp D. rewrite forallb_forall in F.
    apply I1 in D as [k [Hk M]]; auto. specialize (F k Hk). simpl in F. apply andb_true_iff in F as [F1 F2].
    destruct (I2 k Hk) as [_ Kv]. destruct (Kv src Es) as [V1 _]. destruct (Kv dst Ed) as [V2 _].
    rewrite (Hs src) in F2 by auto. destruct F2 as [x Hx].
    rewrite (L_eqb _ _ _ L src) in F1; auto; [|apply Hv; auto].
    pose proof (M src Es) as M1. pose proof (M dst Ed) as M2. apply Hx in M1. apply F1 in M2. apply Hx in M2. congruence.
  - intros _ _ H. apply forallb_forall. intros k Hk. destruct (I2 k Hk) as [_ Kv].
    destruct (Kv src Es) as [V1 [x Hx]]. destruct (Kv dst Ed) as [V2 [y Hy]].
    assert (A : forall a b, vmem a (cube_at (act_of h) k src) -> vmem b (cube_at (act_of h) k dst) -> a = b).
    { intros a b Ha Hb. destruct (cube_point O vmem valid L all N false h k src a Oh I Hk Es Ha) as [p [P1 [P2 P3]]].
      set (q := upd p dst b).
      assert (Q : forall e, In e (act_of h) -> vmem (q e) (cube_at (act_of h) k e)).
      { intros e He. unfold q, upd. destruct (Nat.eqb_spec e dst) as [->|]; auto. }
      assert (Qs : in_space q).
      { intro e. unfold q, upd. destruct (Nat.eqb_spec e dst) as [->|]; auto. apply (L_sub_dom _ _ _ L dst _ b V2 Hb). }
      assert (D : q src = q dst). { apply H; auto. apply I1; auto. exists k. auto. }
      unfold q, upd in D. rewrite Nat.eqb_refl in D. destruct (Nat.eqb_spec src dst); [congruence|]. congruence. }
    simpl. apply andb_true_iff. pose proof (A x y Hx Hy) as <-. split.
    + rewrite (L_eqb _ _ _ L src); auto; [|apply Hv; auto]. intro z. split; intro Hz.
      * rewrite (A z x Hz Hy). auto.
      * rewrite <- (A x z Hx Hz). auto.
    + rewrite (Hs src) by auto. exists x. intro z. split; [|intros ->; auto]. intro Hz. apply A; auto.
Qed.

(** ** Removal of self-connections *)
Lemma union_props_spec all vempty (cs : list (dim -> V)) : NoDup all -> all <> [] ->
  (forall d, In d all -> valid d (vempty d) /\ forall x, ~ vmem x (vempty d)) ->
  (forall c, In c cs -> forall d, In d all -> valid d (c d)) -> forall h, obj false all h ->
  let r := fold_left (fun r c => h_or O all r (make_props O vempty all c)) cs h in
  obj false all r /\ forall p, in_space p -> (denot r p <-> denot h p \/ exists c, In c cs /\ forall d, In d all -> vmem (p d) (c d)).
Proof.
  intros N NE Ve. induction cs as [|c cs IH]; intros G h Oh; cbn [fold_left].
  - split; auto. intros p Hp. split; auto. intros [H|[c [[] _]]]; auto.
  - destruct (make_props_spec all vempty c N NE (G c (or_introl eq_refl)) Ve) as [A1 A2].
    destruct (h_or_spec O vmem valid L false all _ _ N NE Oh A1) as [C [_ F]].
    destruct (IH (fun c' H => G c' (or_intror H)) _ C) as [B1 B2]. split; auto.
    intros p Hp. rewrite B2, F, A2 by auto. simpl. split.
    + intros [[H|H]|[k' [H1 H2]]]; eauto.
    + intros [H|[k' [[->|H1] H2]]]; eauto.
Qed.

Lemma fold_map_left {A B C} (f : A -> B -> A) (g : C -> B) l a :
  fold_left (fun r c => f r (g c)) l a = fold_left f (map g l) a.
Proof. revert a. induction l; simpl; auto. Qed.

Lemma auto_conns_spec vempty peers all h src dst : NoDup all -> In src all -> In dst all -> src <> dst ->
  obj false all h ->
  (forall d, In d all -> valid d (vempty d) /\ forall x, ~ vmem x (vempty d)) ->
  let ps := peers (vor O (project O vempty all h src) (project O vempty all h dst)) in
  (forall v, In v ps -> valid src v /\ valid dst v) ->
  let r := auto_conns O vempty peers all h src dst in
  obj false all r /\ forall p, in_space p -> (denot r p <-> exists v, In v ps /\ vmem (p src) v /\ vmem (p dst) v).
Proof.
  intros N Is Id Ne Oh Ve ps Hv r. assert (NE : all <> []) by (intros ->; destruct Is).
  set (mk := fun v => ccube_set (ccube_set (ccube_full O) src v) dst v).
  assert (E : r = fold_left (fun r c => h_or O all r (make_props O vempty all c)) (map mk ps) (hempty Conn all)).
  { unfold r, auto_conns. fold ps. rewrite <- fold_map_left. reflexivity. }
  destruct (union_props_spec all vempty (map mk ps) N NE Ve) with (h := @hempty V Conn all) as [A B].
  { intros c Hc d Hd. apply in_map_iff in Hc as [v [<- Hv']]. unfold mk, ccube_set, ccube_full.
    destruct (Hv v Hv') as [V1 V2]. destruct (Nat.eqb_spec d dst) as [->|]; auto. destruct (Nat.eqb_spec d src) as [->|]; auto.
    apply (L_dom _ _ _ L). }
  { apply hempty_obj; auto; discriminate. }
  rewrite E. split; auto. intros p Hp. rewrite B by auto. split.
  - intros [H|[c [Hc M]]]; [exfalso; revert H; apply empty_denot; auto|].
    apply in_map_iff in Hc as [v [<- Hv']]. exists v. split; auto. split.
    + specialize (M src Is). unfold mk, ccube_set in M. destruct (Nat.eqb_spec src dst); [congruence|].
      rewrite Nat.eqb_refl in M. auto.
    + specialize (M dst Id). unfold mk, ccube_set in M. rewrite Nat.eqb_refl in M. auto.
  - intros [v [Hv' [M1 M2]]]. right. exists (mk v). split; [apply in_map; auto|]. intros d Hd.
    unfold mk, ccube_set, ccube_full. destruct (Nat.eqb_spec d dst) as [->|]; auto. destruct (Nat.eqb_spec d src) as [->|]; auto.
Qed.

(** ** Named ports *)
Lemma resolve_named_spec names peer protos n d : valid d protos ->
  (In n (resolve_named O names peer protos) <->
   exists nm pr, In nm names /\ PortProtoModel.assoc_s nm (pports peer) = Some (n, pr) /\ vmem pr protos).
Proof.
  intro Vp. unfold resolve_named. rewrite in_flat_map. split.
  - intros [nm [Hn H]]. destruct (PortProtoModel.assoc_s nm (pports peer)) as [[n' pr]|] eqn:E; [|destruct H].
    destruct (vin O pr protos) eqn:Ei; [|destruct H]. destruct H as [->|[]]. exists nm, pr. split; auto. split; auto.
    apply (L_in _ _ _ L d); auto.
  - intros [nm [pr [Hn [E M]]]]. exists nm. split; auto. rewrite E. rewrite (proj2 (L_in _ _ _ L d protos pr Vp)); simpl; auto.
Qed.

(** The points a peer contributes for a list of names. *)
Definition named_pt (dports dpeers : dim) (all : list dim) (c : dim -> V) (protos : V) (names : list String.string)
    (peer : peerinfo) (p : dim -> P) : Prop :=
  (forall d, In d all -> d <> dports -> d <> dpeers -> vmem (p d) (c d)) /\ vmem (p dpeers) (pv peer) /\
  exists nm pr, In nm names /\ PortProtoModel.assoc_s nm (pports peer) = Some (p dports, pr) /\ vmem pr protos.

Section Named.
Context (vset : list P -> V) (vempty : dim -> V) (dports dpeers dprotos : dim) (all : list dim)
  (N : NoDup all) (Ip : In dports all) (Id : In dpeers all) (Ir : In dprotos all) (Ne : dports <> dpeers)
  (Ve : forall d, In d all -> valid d (vempty d) /\ forall x, ~ vmem x (vempty d))
  (Vs : forall l, (forall x, In x l -> vmem x (vdom O dports)) -> valid dports (vset l) /\ forall x, vmem x (vset l) <-> In x l)
  (c : dim -> V) (Vc : forall d, In d all -> valid d (c d)).
Let protos := c dprotos.
Let NE : all <> [].
Proof. intros ->; destruct Ip. Qed.

Definition peer_good (peer : peerinfo) : Prop :=
  valid dpeers (pv peer) /\ forall nm n pr, PortProtoModel.assoc_s nm (pports peer) = Some (n, pr) -> vmem n (vdom O dports).

Lemma named_cube peer names : peer_good peer ->
  let r := make_props O vempty all (ccube_set (ccube_set c dports (vset (resolve_named O names peer protos))) dpeers (pv peer)) in
  obj false all r /\ forall p, in_space p -> (denot r p <-> named_pt dports dpeers all c protos names peer p).
Proof.
  intros [G1 G2] r.
  assert (Hr : forall x, In x (resolve_named O names peer protos) -> vmem x (vdom O dports)).
  { intros x Hx. apply (resolve_named_spec names peer protos x dprotos) in Hx; [|apply Vc; auto].
    destruct Hx as [nm [pr [_ [E _]]]]. eauto. }
  destruct (Vs _ Hr) as [S1 S2].
  destruct (make_props_spec all vempty (ccube_set (ccube_set c dports (vset (resolve_named O names peer protos))) dpeers (pv peer)) N NE) as [A B]; auto.
  { intros d Hd. unfold ccube_set. destruct (Nat.eqb_spec d dpeers) as [->|]; auto. destruct (Nat.eqb_spec d dports) as [->|]; auto. }
  split; auto. intros p Hp. unfold r. rewrite B by auto. unfold named_pt. split.
  - intro H. split; [|split].
    + intros d Hd N1 N2. specialize (H d Hd). unfold ccube_set in H. destruct (Nat.eqb_spec d dpeers); [congruence|].
      destruct (Nat.eqb_spec d dports); [congruence|]. auto.
    + specialize (H dpeers Id). unfold ccube_set in H. rewrite Nat.eqb_refl in H. auto.
    + specialize (H dports Ip). unfold ccube_set in H. destruct (Nat.eqb_spec dports dpeers); [congruence|].
      rewrite Nat.eqb_refl in H. apply S2 in H. apply (resolve_named_spec names peer protos _ dprotos) in H; [exact H|apply Vc; auto].
  - intros [H1 [H2 H3]] d Hd. unfold ccube_set. destruct (Nat.eqb_spec d dpeers) as [->|N2]; auto.
    destruct (Nat.eqb_spec d dports) as [->|N1]; auto. apply S2. apply (resolve_named_spec names peer protos _ dprotos); auto.
    apply Vc; auto.
Qed.

Lemma named_none peer names p : resolve_named O names peer protos = [] -> ~ named_pt dports dpeers all c protos names peer p.
Proof.
  intros E [_ [_ H]]. apply (resolve_named_spec names peer protos (p dports) dprotos) in H; [|apply Vc; auto]. rewrite E in H. destruct H.
Qed.

(** [keep] is a point that is never excluded (needed only when some name is excluded). *)
Lemma named_loop named excl peers : (forall q, In q peers -> peer_good q) ->
  ForallOrdPairs (fun a b => forall x, vmem x (pv a) -> vmem x (pv b) -> False) peers ->
  forall h, obj false all h ->
  (excl = [] \/ exists w, in_space w /\ denot h w /\ forall q, In q peers -> ~ named_pt dports dpeers all c protos excl q w) ->
  (forall p q, in_space p -> In q peers -> True) ->
  let r := fold_left (named_step O vempty vset dports dpeers all c named excl protos) peers h in
  obj false all r /\
  forall p, in_space p -> (denot r p <->
     (denot h p \/ exists q, In q peers /\ named_pt dports dpeers all c protos named q p) /\
     ~ exists q, In q peers /\ named_pt dports dpeers all c protos excl q p).
Proof.
  induction peers as [|q peers IH]; intros G D h Oh S _; cbn [fold_left].
  - split; auto. intros p Hp. split.
    + intro H. split; auto. intros [q [[] _]].
    + intros [[H|[q [[] _]]] _]; auto.
  - inversion D as [|? ? D1 D2]; subst. rewrite Forall_forall in D1.
    assert (Gq : peer_good q) by (apply G; simpl; auto).
    destruct (named_cube q named Gq) as [A1 A2]. destruct (named_cube q excl Gq) as [B1 B2].
    set (h1 := match resolve_named O named q protos with [] => h | real => h_or O all h
       (make_props O vempty all (ccube_set (ccube_set c dports (vset real)) dpeers (pv q))) end).
    assert (H1 : obj false all h1 /\ forall p, in_space p -> (denot h1 p <-> denot h p \/ named_pt dports dpeers all c protos named q p)).
    { unfold h1. destruct (resolve_named O named q protos) as [|x xs] eqn:E.
      - split; auto. intros p Hp. split; auto. intros [H|H]; auto. exfalso. revert H. apply named_none; auto.
      - destruct (h_or_spec O vmem valid L false all _ _ N NE Oh A1) as [C [_ F]]. split; auto.
        intros p Hp. rewrite F, A2 by auto. tauto. }
    destruct H1 as [O1 M1].
    assert (H2 : obj false all (named_step O vempty vset dports dpeers all c named excl protos h q) /\
       forall p, in_space p -> (denot (named_step O vempty vset dports dpeers all c named excl protos h q) p <->
         denot h1 p /\ ~ named_pt dports dpeers all c protos excl q p)).
    { unfold named_step. fold h1. destruct (resolve_named O excl q protos) as [|x xs] eqn:E.
      - split; auto. intros p Hp. split; [|tauto]. intro H. split; auto. apply named_none; auto.
      - destruct S as [S|[w [W1 [W2 W3]]]].
        { subst excl. discriminate. }
        destruct (h_sub_spec O vmem valid L false all _ _ N NE O1 B1) as [C [_ F]].
        { apply (sub_safe_intro O vmem valid L all N false); auto. left. exists w. split; auto. apply M1; auto. }
        split; auto. intros p Hp. rewrite F, B2 by auto. tauto. }
    destruct H2 as [O2 M2].
    destruct (IH (fun q' H => G q' (or_intror H)) D2 _ O2) as [R1 R2]; auto.
    { destruct S as [S|[w [W1 [W2 W3]]]]; [left; auto|right]. exists w. split; auto. split.
      - apply M2; auto. split; [apply M1; auto|]. apply W3. simpl; auto.
      - intros q' Hq. apply W3. simpl; auto. }
    split; auto. intros p Hp. rewrite R2, M2, M1 by auto. simpl. split.
    + intros [[[[H|H] X]|[q' [H1 H2]]] Y].
      * split; auto. intros [q' [[->|H1] H2]]; eauto.
      * split; eauto. intros [q' [[->|H1] H2]]; eauto.
      * split; eauto. intros [q'' [[<-|H3] H4]]; eauto.
        destruct H2 as [_ [H2 _]]. destruct H4 as [_ [H4 _]]. apply (D1 q' H1 _ H4 H2).
    + intros [X Y]. split.
      * destruct X as [H|[q' [[<-|H1] H2]]].
        -- left. split; auto. intro Z. apply Y. eauto.
        -- left. split; auto. intro Z. apply Y. eauto.
        -- right. eauto.
      * intros [q' [H1 H2]]. apply Y. eauto.
Qed.
End Named.
End Reorder.
