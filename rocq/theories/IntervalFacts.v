(** * Facts about the interval-set model (int instance). *)
From Coq Require Import ZArith List Bool Lia ZifyBool.
From Verif Require Import IntervalModel.
Import ListNotations.
Open Scope Z_scope.

(** Independent meaning: the numbers of an interval list. *)
Definition mem (x : Z) (l : iset) : Prop := exists i, In i l /\ lo i <= x <= hi i.

(** Canonical form (class docstring, CanonicalIntervalSet.py:8-13): non-empty
    intervals, sorted, with a missing number between consecutive ones.
    [canon_from b l]: additionally everything is above [b]. *)
Fixpoint canon_from (b : Z) (l : iset) : Prop :=
  match l with
  | [] => True
  | i :: t => b < lo i /\ lo i <= hi i /\ canon_from (hi i + 1) t
  end.
Definition canonical (l : iset) : Prop :=
  match l with [] => True | i :: t => lo i <= hi i /\ canon_from (hi i + 1) t end.

Lemma canon_from_weaken : forall l b b', b' <= b -> canon_from b l -> canon_from b' l.
Proof. destruct l; simpl; intros; auto. intuition lia. Qed.

Lemma canonical_from : forall l, canonical l <-> exists b, canon_from b l.
Proof.
  destruct l; simpl; split; intros; auto.
  - exists 0; auto.
  - exists (lo i - 1). intuition lia.
  - destruct H as [b H]. intuition.
Qed.

Lemma canonical_cons_from : forall i l, canonical (i :: l) <-> lo i <= hi i /\ canon_from (hi i + 1) l.
Proof. reflexivity. Qed.

Lemma canon_from_canonical : forall b l, canon_from b l -> canonical l.
Proof. intros. apply canonical_from. eauto. Qed.

Lemma mem_nil : forall x, mem x [] <-> False.
Proof. unfold mem; simpl; firstorder. Qed.

Lemma mem_cons : forall x i l, mem x (i :: l) <-> (lo i <= x <= hi i) \/ mem x l.
Proof.
  unfold mem; simpl; split.
  - intros (j & [<- | Hj] & Hx); eauto.
  - intros [H | (j & Hj & Hx)]; eauto.
Qed.

Lemma mem_app : forall x l m, mem x (l ++ m) <-> mem x l \/ mem x m.
Proof.
  unfold mem; intros; split.
  - intros (i & Hi & Hx). apply in_app_iff in Hi. destruct Hi; eauto.
  - intros [(i & Hi & Hx) | (i & Hi & Hx)]; exists i; rewrite in_app_iff; auto.
Qed.

Lemma canon_from_mem : forall l b x, canon_from b l -> mem x l -> b < x.
Proof.
  induction l as [|i l IH]; simpl; intros b x H M.
  - apply mem_nil in M; tauto.
  - destruct H as (H1 & H2 & H3). apply mem_cons in M. destruct M as [M | M]; [lia|].
    apply IH with (x := x) in H3; auto. lia.
Qed.

Lemma canon_from_in : forall l b i, canon_from b l -> In i l -> b < lo i /\ lo i <= hi i.
Proof.
  induction l as [|j l IH]; simpl; intros b i H M; [tauto|].
  destruct H as (H1 & H2 & H3). destruct M as [<- | M]; [lia|].
  apply IH with (i := i) in H3; auto. lia.
Qed.

Lemma canonical_in : forall l i, canonical l -> In i l -> lo i <= hi i.
Proof. intros l i H M. apply canonical_from in H. destruct H as [b H]. eapply canon_from_in in H; eauto. tauto. Qed.

Lemma canon_from_app : forall l m b,
  canon_from b (l ++ m) <->
  canon_from b l /\ canon_from (match rev l with [] => b | i :: _ => hi i + 1 end) m.
Proof.
  induction l as [|i l IH]; simpl; intros.
  - tauto.
  - rewrite IH. destruct (rev l) eqn:E; simpl.
    + assert (l = []) by (rewrite <- (rev_involutive l), E; auto). subst. simpl. tauto.
    + tauto.
Qed.

(** Extensionality of the canonical form. *)
Lemma canon_from_ext : forall l m b b',
  canon_from b l -> canon_from b' m -> (forall x, mem x l <-> mem x m) -> l = m.
Proof.
  induction l as [|i l IH]; intros m b b' Hl Hm E.
  - destruct m as [|j m]; auto. exfalso. simpl in Hm.
    apply (mem_nil (lo j)). apply E. apply mem_cons. left. lia.
  - destruct m as [|j m].
    + exfalso. simpl in Hl. apply (mem_nil (lo i)). apply E. apply mem_cons. left; lia.
    + simpl in Hl, Hm. destruct Hl as (Hl1 & Hl2 & Hl3), Hm as (Hm1 & Hm2 & Hm3).
      assert (A : forall x, mem x l -> hi i + 1 < x) by (intros; eapply canon_from_mem; eauto).
      assert (B : forall x, mem x m -> hi j + 1 < x) by (intros; eapply canon_from_mem; eauto).
      assert (Elo : lo i = lo j).
      { assert (lo i <= lo j).
        { destruct (E (lo j)) as [_ E2]. rewrite !mem_cons in E2. destruct E2 as [E2|E2]; [left; lia|lia|].
          apply A in E2. lia. }
        assert (lo j <= lo i).
        { destruct (E (lo i)) as [E2 _]. rewrite !mem_cons in E2. destruct E2 as [E2|E2]; [left; lia|lia|].
          apply B in E2. lia. }
        lia. }
      assert (Ehi : hi i = hi j).
      { destruct (Z.lt_trichotomy (hi i) (hi j)) as [C|[C|C]]; auto; exfalso.
        - destruct (E (hi i + 1)) as [_ E2]. rewrite !mem_cons in E2. destruct E2 as [E2|E2]; [left; lia|lia|].
          apply A in E2. lia.
        - destruct (E (hi j + 1)) as [E2 _]. rewrite !mem_cons in E2. destruct E2 as [E2|E2]; [left; lia|lia|].
          apply B in E2. lia. }
      f_equal.
      * destruct i, j; simpl in *; congruence.
      * eapply IH; eauto. intros x. specialize (E x). rewrite !mem_cons in E.
        split; intro M.
        -- destruct E as [E _]. destruct E as [E|E]; auto. apply A in M. lia.
        -- destruct E as [_ E]. destruct E as [E|E]; auto. apply B in M. lia.
Qed.

Lemma canonical_ext : forall l m,
  canonical l -> canonical m -> (forall x, mem x l <-> mem x m) -> l = m.
Proof.
  intros l m Hl Hm E. apply canonical_from in Hl, Hm. destruct Hl as [b Hl], Hm as [b' Hm].
  eapply canon_from_ext; eauto.
Qed.

Lemma ivl_eqb_eq : forall a b, ivl_eqb a b = true <-> a = b.
Proof.
  intros [a1 a2] [b1 b2]. unfold ivl_eqb; simpl. rewrite andb_true_iff, !Z.eqb_eq.
  split; [intros [-> ->]; auto | intros E; inversion E; auto].
Qed.

Lemma iset_eqb_eq : forall l m, iset_eqb l m = true <-> l = m.
Proof.
  induction l as [|a l IH]; destruct m as [|b m]; simpl; split; intros H; try discriminate; auto.
  - apply andb_true_iff in H as [H1 H2]. apply ivl_eqb_eq in H1. apply IH in H2. congruence.
  - inversion H; subst. apply andb_true_iff; split; [apply ivl_eqb_eq | apply IH]; auto.
Qed.

(** ** The binary searches. *)

(* Any canonical list splits around an interval x into: strictly below and not
   touching, touching or overlapping, strictly above and not touching. *)
Lemma canon_split_left : forall l b s, canon_from b l ->
  exists L R, l = L ++ R /\ (forall i, In i L -> hi i < s) /\ (forall i, In i R -> s <= hi i).
Proof.
  induction l as [|i l IH]; intros b s H.
  - exists [], []. repeat split; simpl; tauto.
  - simpl in H. destruct H as (H1 & H2 & H3). destruct (Z.lt_ge_cases (hi i) s).
    + destruct (IH _ s H3) as (L & R & E & HL & HR). exists (i :: L), R. subst l. split; [auto|]. split; auto.
      intros j [<- | Hj]; auto.
    + exists [], (i :: l). repeat split; simpl; try tauto. intros j [<- | Hj]; auto.
      eapply canon_from_in in H3; eauto. lia.
Qed.

Lemma canon_split_right : forall l b e, canon_from b l ->
  exists L R, l = L ++ R /\ (forall i, In i L -> lo i <= e) /\ (forall i, In i R -> e < lo i).
Proof.
  induction l as [|i l IH]; intros b e H.
  - exists [], []. repeat split; simpl; tauto.
  - simpl in H. destruct H as (H1 & H2 & H3). destruct (Z.le_gt_cases (lo i) e).
    + destruct (IH _ e H3) as (L & R & E & HL & HR). exists (i :: L), R. subst l. split; [auto|]. split; auto.
      intros j [<- | Hj]; auto.
    + exists [], (i :: l). repeat split; simpl; try tauto. intros j [<- | Hj]; auto.
      eapply canon_from_in in H3; eauto. lia.
Qed.

Lemma nth_error_app_l : forall A (L R : list A) k, (k < length L)%nat ->
  exists x, nth_error (L ++ R) k = Some x /\ In x L.
Proof.
  intros. destruct (nth_error L k) eqn:E.
  - exists a. split; [rewrite nth_error_app1; auto|]. eapply nth_error_In; eauto.
  - apply nth_error_None in E. lia.
Qed.

Lemma nth_error_app_r : forall A (L R : list A) k, (length L <= k < length L + length R)%nat ->
  exists x, nth_error (L ++ R) k = Some x /\ In x R.
Proof.
  intros. destruct (nth_error R (k - length L)) eqn:E.
  - exists a. split; [rewrite nth_error_app2 by lia; auto|]. eapply nth_error_In; eauto.
  - apply nth_error_None in E. lia.
Qed.

Lemma div2_bounds : forall low high, (low < high)%nat -> (low <= Nat.div2 (low + high) < high)%nat.
Proof.
  intros. rewrite Nat.div2_div.
  pose proof (Nat.div_mod (low + high) 2). pose proof (Nat.mod_upper_bound (low+high) 2). lia.
Qed.

Section Searches.
Variables inc dec : Z -> Z.

(* find_interval_left returns |L| - 1 where L is the prefix with end < start-1. *)
Lemma fil_loop_spec : forall fuel L R s low high,
  (L ++ R) <> [] ->
  (forall i, In i L -> hi i < dec s) -> (forall i, In i R -> dec s <= hi i) ->
  (low <= length L <= high)%nat -> (high <= length L + length R)%nat ->
  (low = 0%nat \/ low < length L)%nat ->
  (high - low < fuel)%nat ->
  g_fil_loop dec fuel (L ++ R) s low high = Some (Z.of_nat (length L) - 1).
Proof.
  induction fuel as [|f IH]; intros L R s low high NE HL HR B1 B2 B3 F; [lia|].
  cbn [g_fil_loop]. destruct (Nat.eqb_spec low high) as [E|E].
  - subst high. assert (low = 0 /\ length L = 0)%nat as [-> EL] by lia.
    destruct L; [|discriminate]. simpl app. rewrite app_nil_l in NE.
    destruct R as [|i R]; [congruence|]. simpl.
    specialize (HR i (or_introl eq_refl)).
    assert ((hi i >=? dec s) = true) as -> by lia. reflexivity.
  - set (mid := Nat.div2 (low + high)).
    assert (M : (low <= mid < high)%nat) by (apply div2_bounds; lia).
    destruct (Nat.lt_ge_cases mid (length L)) as [C|C].
    + destruct (nth_error_app_l _ L R mid C) as (im & -> & Im). specialize (HL im Im) as Hm.
      assert ((hi im <? dec s) = true) as -> by lia.
      rewrite app_length.
      destruct (Nat.eqb_spec mid (length L + length R - 1)).
      * f_equal. lia.
      * destruct (Nat.lt_ge_cases (S mid) (length L)) as [C'|C'].
        -- destruct (nth_error_app_l _ L R (S mid) C') as (ix & -> & Ix). specialize (HL ix Ix) as Hx.
           assert ((hi ix >=? dec s) = false) as -> by lia.
           apply IH; auto; lia.
        -- assert (length L <= S mid < length L + length R)%nat as C2 by lia.
           destruct (nth_error_app_r _ L R (S mid) C2) as (ix & -> & Ix).
           specialize (HR ix Ix) as Hx.
           assert ((hi ix >=? dec s) = true) as -> by lia. f_equal. lia.
    + assert (length L <= mid < length L + length R)%nat as C2 by lia.
      destruct (nth_error_app_r _ L R mid C2) as (im & -> & Im). specialize (HR im Im) as Hm.
      assert ((hi im <? dec s) = false) as -> by lia.
      apply IH; auto; lia.
Qed.

Lemma find_left_spec : forall L R x,
  (forall i, In i L -> hi i < dec (lo x)) -> (forall i, In i R -> dec (lo x) <= hi i) ->
  g_find_left dec (L ++ R) x = Some (Z.of_nat (length L) - 1).
Proof.
  intros L R x HL HR. unfold g_find_left. destruct (L ++ R) eqn:E.
  - apply app_eq_nil in E as [-> ->]. reflexivity.
  - rewrite <- E. apply fil_loop_spec; auto; rewrite ?app_length; try lia. congruence.
Qed.

(* find_interval_right returns |L| where L is the prefix with start <= end+1, or -1. *)
Lemma fir_loop_spec : forall fuel L R e low high,
  (L ++ R) <> [] ->
  (forall i, In i L -> lo i <= inc e) -> (forall i, In i R -> inc e < lo i) ->
  (low <= length L <= high)%nat -> (high <= length L + length R)%nat ->
  (high = length L + length R \/ length L < high)%nat ->
  (high - low < fuel)%nat ->
  g_fir_loop inc fuel (L ++ R) e low high =
    Some (match R with [] => -1 | _ => Z.of_nat (length L) end).
Proof.
  induction fuel as [|f IH]; intros L R e low high NE HL HR B1 B2 B3 F; [lia|].
  cbn [g_fir_loop]. destruct (Nat.eqb_spec low high) as [E|E].
  - subst high. assert (low = length L /\ length R = 0)%nat as [-> ER] by lia.
    destruct R; [|discriminate]. rewrite app_nil_r in *. rewrite Nat.eqb_refl.
    assert (length L > 0)%nat by (destruct L; [congruence|simpl; lia]).
    destruct (nth_error L (length L - 1)) eqn:N.
    + apply nth_error_In in N. apply HL in N. assert ((lo i <=? inc e) = true) as -> by lia. reflexivity.
    + apply nth_error_None in N. lia.
  - set (mid := Nat.div2 (low + high)).
    assert (M : (low <= mid < high)%nat) by (apply div2_bounds; lia).
    destruct (Nat.lt_ge_cases mid (length L)) as [C|C].
    + destruct (nth_error_app_l _ L R mid C) as (im & -> & Im). specialize (HL im Im) as Hm.
      assert ((lo im >? inc e) = false) as -> by lia.
      apply IH; auto; lia.
    + assert (length L <= mid < length L + length R)%nat as C2 by lia.
      destruct (nth_error_app_r _ L R mid C2) as (im & -> & Im). specialize (HR im Im) as Hm.
      assert ((lo im >? inc e) = true) as -> by lia.
      assert (R <> []) as NR by (destruct R; simpl in *; [lia|congruence]).
      destruct (Nat.eqb_spec mid 0).
      * assert (length L = 0)%nat by lia. destruct R; [congruence|]. f_equal. lia.
      * destruct (Nat.lt_ge_cases (mid - 1) (length L)) as [C'|C'].
        -- destruct (nth_error_app_l _ L R (mid-1) C') as (ix & -> & Ix). specialize (HL ix Ix) as Hx.
           assert ((lo ix <=? inc e) = true) as -> by lia.
           destruct R; [congruence|]. f_equal. lia.
        -- assert (length L <= mid - 1 < length L + length R)%nat as C3 by lia.
           destruct (nth_error_app_r _ L R (mid-1) C3) as (ix & -> & Ix).
           specialize (HR ix Ix) as Hx.
           assert ((lo ix <=? inc e) = false) as -> by lia. apply IH; auto; lia.
Qed.

Lemma find_right_spec : forall L R x,
  (forall i, In i L -> lo i <= inc (hi x)) -> (forall i, In i R -> inc (hi x) < lo i) ->
  g_find_right inc (L ++ R) x = Some (match R with [] => -1 | _ => Z.of_nat (length L) end).
Proof.
  intros L R x HL HR. unfold g_find_right. destruct (L ++ R) eqn:E.
  - apply app_eq_nil in E as [-> ->]. reflexivity.
  - rewrite <- E. apply fir_loop_spec; auto; rewrite ?app_length; try lia. congruence.
Qed.
End Searches.

Lemma py_nth_nonneg : forall A (l : list A) i, 0 <= i < Z.of_nat (length l) ->
  py_nth l i = nth_error l (Z.to_nat i).
Proof. intros. unfold py_nth. destruct (Z.ltb_spec i 0); try lia. destruct (Z.leb_spec (Z.of_nat (length l)) i); try lia. destruct (Z.ltb_spec i 0); try lia. reflexivity. Qed.

(** ** add_interval *)
Lemma canon_split3 : forall l x, canonical l -> lo x <= hi x ->
  exists L M R, l = L ++ M ++ R
   /\ (forall i, In i L -> hi i < lo x - 1)
   /\ (forall i, In i M -> lo x - 1 <= hi i /\ lo i <= hi x + 1)
   /\ (forall i, In i R -> hi x + 1 < lo i).
Proof.
  intros l x H Hx. apply canonical_from in H as [b H].
  destruct (canon_split_left _ _ (lo x - 1) H) as (L & R1 & -> & HL & HR1).
  apply canon_from_app in H as [H1 H2].
  destruct (canon_split_right _ _ (hi x + 1) H2) as (M & R & -> & HM & HR).
  exists L, M, R. split; [auto|]. split; [auto|]. split; [|auto].
  intros i Hi. split; [apply HR1; apply in_app_iff; auto | apply HM; auto].
Qed.

(* The explicit result of add_interval. *)
Definition merged (x : ivl) (M : iset) : ivl :=
  match M with
  | [] => x
  | a :: _ => Ivl (Z.min (lo x) (lo a)) (Z.max (hi x) (hi (last M a)))
  end.

Lemma last_In : forall A (l : list A) a, In (last (a :: l) a) (a :: l).
Proof. intros. induction l as [|b l IH] in a |- * using rev_ind; [simpl; auto|].
  rewrite app_comm_cons, last_last. apply in_or_app. right. simpl. auto. Qed.

Lemma last_default : forall A (M : list A) c a b, last (c :: M) a = last (c :: M) b.
Proof. induction M as [|d M IH]; intros; [reflexivity|]. change (last (d :: M) a = last (d :: M) b). apply IH. Qed.

Lemma nth_error_last : forall A (l : list A) a,
  nth_error (a :: l) (length l) = Some (last (a :: l) a).
Proof.
  intros. destruct (exists_last (l := a :: l)) as (l' & b & E); [congruence|].
  rewrite E. rewrite last_last.
  assert (length l = length l'). { apply (f_equal (@length _)) in E. rewrite app_length in E. simpl in E. lia. }
  rewrite H, nth_error_app2, Nat.sub_diag; auto.
Qed.

Lemma add_interval_spec : forall L M R x,
  lo x <= hi x ->
  (forall i, In i L -> hi i < lo x - 1) ->
  (forall i, In i M -> lo x - 1 <= hi i /\ lo i <= hi x + 1) ->
  (forall i, In i R -> hi x + 1 < lo i) ->
  (forall i, In i (L ++ M ++ R) -> lo i <= hi i) ->
  add_interval (L ++ M ++ R) x = Some (L ++ merged x M :: R).
Proof.
  intros L M R x Hx HL HM HR HV. unfold add_interval, g_add_interval.
  destruct (L ++ M ++ R) eqn:E.
  - apply app_eq_nil in E as [-> E]. apply app_eq_nil in E as [-> ->]. reflexivity.
  - rewrite <- E in *. clear i l E.
    assert (FL : g_find_left Z.pred (L ++ M ++ R) x = Some (Z.of_nat (length L) - 1)).
    { apply find_left_spec; [intros i Hi; specialize (HL i Hi); lia|].
      intros i Hi. apply in_app_iff in Hi as [Hi|Hi]; [specialize (HM i Hi); lia|].
      assert (lo i <= hi i) by (apply HV; rewrite !in_app_iff; auto).
      specialize (HR i Hi). lia. }
    assert (FR : g_find_right Z.succ (L ++ M ++ R) x =
                 Some (match R with [] => -1 | _ => Z.of_nat (length L + length M) end)).
    { rewrite app_assoc. rewrite <- app_length. apply find_right_spec.
      - intros i Hi. apply in_app_iff in Hi as [Hi|Hi]; [|specialize (HM i Hi); lia].
        assert (lo i <= hi i) by (apply HV; rewrite !in_app_iff; auto).
        specialize (HL i Hi). lia.
      - intros i Hi; specialize (HR i Hi); lia. }
    rewrite FL, FR.
    assert (LEN : Z.of_nat (length (L ++ M ++ R)) = Z.of_nat (length L) + Z.of_nat (length M) + Z.of_nat (length R))
      by (rewrite !app_length; lia).
    rewrite LEN.
    set (rt := match R with [] => -1 | _ => Z.of_nat (length L + length M) end).
    destruct M as [|m M'].
    + (* nothing touches x *)
      change ([] ++ R) with R. simpl merged.
      destruct L as [|a L'].
      * (* left = -1 *)
        destruct R as [|r R']; unfold rt; simpl; reflexivity.
      * remember (a :: L') as L eqn:EL.
        assert (length L > 0)%nat by (subst; simpl; lia).
        destruct R as [|r R'].
        -- unfold rt. simpl length.
           assert (((Z.of_nat (length L) - 1 >=? 0) && (-1 >=? 0) && (-1 - (Z.of_nat (length L) - 1) =? 1)) = false) as -> by lia.
           assert (((Z.of_nat (length L) - 1 =? -1) && (-1 =? 0)) = false) as -> by lia.
           assert (((-1 =? -1) && (Z.of_nat (length L) - 1 =? Z.of_nat (length L) + Z.of_nat 0 + Z.of_nat 0 - 1)) = true) as -> by lia.
           rewrite app_nil_r. reflexivity.
        -- unfold rt. simpl length.
           assert (((Z.of_nat (length L) - 1 >=? 0) && (Z.of_nat (length L + 0) >=? 0) && (Z.of_nat (length L + 0) - (Z.of_nat (length L) - 1) =? 1)) = true) as -> by lia.
           replace (Z.to_nat (Z.of_nat (length L) - 1 + 1)) with (length L) by lia.
           rewrite firstn_app, Nat.sub_diag, firstn_all, skipn_app, Nat.sub_diag, skipn_all. simpl.
           rewrite app_nil_r. reflexivity.
    + remember (m :: M') as M eqn:EM.
      assert (RT : (R = [] /\ rt = -1) \/ (length R > 0 /\ rt = Z.of_nat (length L + length M))%nat).
      { unfold rt. destruct R; [left|right]; split; auto. simpl; lia. }
      clearbody rt.
      assert (length M = S (length M')) as LM' by (subst; reflexivity).
      assert (LM : (length M > 0)%nat) by lia.
      assert (((Z.of_nat (length L) - 1 >=? 0) && (rt >=? 0) && (rt - (Z.of_nat (length L) - 1) =? 1)) = false) as ->.
      { lia. }
      assert (((Z.of_nat (length L) - 1 =? -1) && (rt =? 0)) = false) as ->.
      { lia. }
      assert (((rt =? -1) && (Z.of_nat (length L) - 1 =? Z.of_nat (length L) + Z.of_nat (length M) + Z.of_nat (length R) - 1)) = false) as ->.
      { lia. }
      assert ((if rt >=? 0 then rt - 1 else Z.of_nat (length L) + Z.of_nat (length M) + Z.of_nat (length R) - 1)
              = Z.of_nat (length L) + Z.of_nat (length M) - 1) as ->.
      { destruct RT as [[-> ->]|[RT ->]].
        - simpl (length []). destruct (Z.geb_spec (-1) 0); lia.
        - destruct (Z.geb_spec (Z.of_nat (length L + length M)) 0); lia. }
      replace (Z.of_nat (length L) - 1 + 1) with (Z.of_nat (length L)) by lia.
      rewrite !py_nth_nonneg by (rewrite LEN; lia).
      rewrite nth_error_app2 by lia.
      replace (Z.to_nat (Z.of_nat (length L)) - length L)%nat with 0%nat by lia.
      replace (nth_error (M ++ R) 0) with (Some m) by (subst; reflexivity).
      rewrite nth_error_app2 by lia.
      rewrite nth_error_app1 by lia.
      replace (Z.to_nat (Z.of_nat (length L) + Z.of_nat (length M) - 1) - length L)%nat with (length M') by lia.
      replace (nth_error M (length M')) with (Some (last M m)) by (subst M; symmetry; apply nth_error_last).
      set (z := last M m).
      assert (T : forall i, In i M -> ivl_overlaps i x || g_touches Z.succ i x = true).
      { intros i Hi. specialize (HM i Hi). assert (lo i <= hi i) by (apply HV; rewrite !in_app_iff; auto).
        unfold ivl_overlaps, g_touches. destruct (Z.gtb_spec (lo i) (hi x)), (Z.gtb_spec (lo x) (hi i)); lia. }
      assert (IZ : In z M) by (unfold z; subst M; apply last_In).
      rewrite (T m) by (subst; simpl; auto). rewrite (T z) by auto.
      do 2 f_equal.
      * replace (Z.to_nat (Z.of_nat (length L))) with (length L) by lia.
        rewrite firstn_app, Nat.sub_diag, firstn_all. simpl. rewrite app_nil_r. auto.
      * f_equal; [subst M; reflexivity|].
        replace (Z.to_nat (Z.max (Z.of_nat (length L)) (Z.of_nat (length L) + Z.of_nat (length M) - 1 + 1)))
          with (length L + length M)%nat by lia.
        rewrite <- app_length, app_assoc, skipn_app, Nat.sub_diag, skipn_all. reflexivity.
Qed.

Lemma add_interval_ok : forall l x, canonical l -> lo x <= hi x ->
  exists l', add_interval l x = Some l' /\ canonical l'
    /\ (forall y, mem y l' <-> mem y l \/ lo x <= y <= hi x)
    /\ (forall b, b < lo x -> canon_from b l -> canon_from b l').
Proof.
  intros l x H Hx.
  destruct (canon_split3 l x H Hx) as (L & M & R & -> & HL & HM & HR).
  exists (L ++ merged x M :: R).
  split. { apply add_interval_spec; auto. intros; eapply canonical_in; eauto. }
  assert (MG : lo (merged x M) <= lo x /\ hi x <= hi (merged x M)).
  { destruct M; simpl; lia. }
  assert (C : forall b, b < lo x -> canon_from b (L ++ M ++ R) -> canon_from b (L ++ merged x M :: R)).
  { intros b Hb HC. apply canon_from_app in HC as [HC1 HC2]. apply canon_from_app. split; auto.
    remember (match rev L with [] => b | i :: _ => hi i + 1 end) as c.
    assert (c < lo x).
    { subst c. destruct (rev L) eqn:E; auto. assert (In i L) by (apply in_rev; rewrite E; simpl; auto).
      apply HL in H0. lia. }
    apply canon_from_app in HC2 as [HC2 HC3]. simpl.
    split; [|split; [lia|]].
    - destruct M as [|a M]; simpl; [lia|]. simpl in HC2. lia.
    - destruct M as [|a M].
      + simpl in HC3. simpl. destruct R; simpl; auto. simpl in HC3.
        specialize (HR i (or_introl eq_refl)). intuition.
      + remember (a :: M) as N. destruct (rev N) as [|z N'] eqn:EN.
        { subst N. apply (f_equal (@length _)) in EN. rewrite rev_length in EN. simpl in EN. lia. }
        assert (last N a = z) as EL.
        { rewrite <- (rev_involutive N), EN. simpl. apply last_last. }
        assert (hi (merged x N) = Z.max (hi x) (hi z)) as -> by (rewrite <- EL; subst N; reflexivity).
        destruct R; simpl; auto. simpl in HC3. specialize (HR i (or_introl eq_refl)). intuition lia. }
  split; [|split; [|exact C]].
  - apply canonical_from in H as [b H]. apply canonical_from. exists (Z.min b (lo x - 1)).
    apply C; [lia|]. eapply canon_from_weaken; [|eauto]. lia.
  - intros y. rewrite !mem_app, mem_cons.
    destruct M as [|a M]; simpl merged. { rewrite mem_nil. tauto. }
    simpl lo; simpl hi.
    assert (mem y (a :: M) \/ lo x <= y <= hi x <->
            Z.min (lo x) (lo a) <= y <= Z.max (hi x) (hi (last (a :: M) a))) as EQ; [|tauto].
    assert (IZ : In (last (a :: M) a) (a :: M)) by apply last_In.
    remember (last (a :: M) a) as z.
    pose proof (HM a (or_introl eq_refl)) as HA. pose proof (HM z IZ) as HZ.
    assert (VA : lo a <= hi a) by (eapply canonical_in; [apply H|rewrite !in_app_iff; simpl; auto]).
    assert (VZ : lo z <= hi z) by (eapply canonical_in; [apply H|rewrite !in_app_iff; auto]).
    apply canonical_from in H as [b H]. apply canon_from_app in H as [_ H]. apply canon_from_app in H as [H _].
    split.
    + intros [(i & Hi & Hy)|Hy]; [|lia].
      assert (lo a <= lo i).
      { destruct Hi as [<-|Hi]; [lia|]. simpl in H. destruct H as (_&_&H). eapply canon_from_in in H; eauto. lia. }
      assert (hi i <= hi z).
      { clear - H Hi Heqz. subst z. revert H. generalize (match rev L with [] => b | i :: _ => hi i + 1 end). intros b0 H. revert b0 a H i Hi. induction M as [|c M IH]; intros.
        - simpl. destruct Hi as [<-|[]]. lia.
        - change (last (a :: c :: M) a) with (last (c :: M) a).
          assert (last (c :: M) a = last (c :: M) c) as ->.
          { apply last_default. }
          simpl in H. destruct H as (h1 & h2 & h3).
          destruct Hi as [<-|Hi]; [|eapply IH; simpl; eauto].
          assert (hi c <= hi (last (c :: M) c)) by (apply (IH (hi a + 1) c); [exact h3|left; reflexivity]). simpl in h3.
          lia. }
      lia.
    + intros Hy. destruct (Z_le_gt_dec (lo x) y) as [c1|c1].
      * destruct (Z_le_gt_dec y (hi x)) as [c2|c2]; [right; lia|].
        left. exists z. split; auto. lia.
      * left. exists a. split; [simpl; auto|]. lia.
Qed.

Lemma iset_or_ok : forall m l, canonical l -> canonical m ->
  exists r, iset_or l m = Some r /\ canonical r /\ (forall y, mem y r <-> mem y l \/ mem y m)
   /\ (forall b, canon_from b l -> canon_from b m -> canon_from b r).
Proof.
  assert (G : forall m l, canonical l -> (forall i, In i m -> lo i <= hi i) ->
    exists r, iset_or l m = Some r /\ canonical r /\ (forall y, mem y r <-> mem y l \/ mem y m)
      /\ (forall b, canon_from b l -> (forall i, In i m -> b < lo i) -> canon_from b r)).
  { unfold iset_or. induction m as [|x m IH]; intros l Hl Hm.
    - exists l. simpl. repeat split; auto; rewrite ?mem_nil; tauto.
    - destruct (add_interval_ok l x Hl) as (l1 & E1 & C1 & M1 & B1); [apply Hm; simpl; auto|].
      destruct (IH l1 C1) as (r & E & C & M & B); [intros; apply Hm; simpl; auto|].
      exists r. simpl. unfold add_interval in E1. rewrite E1. split; [auto|]. split; [auto|]. split.
      + intros y. rewrite M, M1, mem_cons. tauto.
      + intros b Hb Hb'. apply B; [apply B1; auto; apply Hb'; simpl; auto|intros; apply Hb'; simpl; auto]. }
  intros m l Hl Hm. destruct (G m l Hl) as (r & E & C & M & B).
  { intros; eapply canonical_in; eauto. }
  exists r. repeat split; auto; try apply M. intros. apply B; auto. intros; eapply canon_from_in in H0; eauto. tauto.
Qed.

(** ** Interval difference and holes *)
Lemma ivl_sub_ok : forall a h, lo a <= hi a -> lo h <= hi h ->
  (forall y, mem y (ivl_sub a h) <-> lo a <= y <= hi a /\ ~ (lo h <= y <= hi h))
  /\ (forall b t, b < lo a -> canon_from (hi a + 1) t -> canon_from b (ivl_sub a h ++ t)).
Proof.
  intros a h Ha Hh. unfold ivl_sub, g_ivl_sub, ivl_overlaps, ivl_is_subset.
  destruct (Z.geb_spec (hi h) (lo a)), (Z.leb_spec (lo h) (hi a)),
    (Z.leb_spec (lo h) (lo a)), (Z.geb_spec (hi h) (hi a)), (Z.ltb_spec (lo a) (lo h)), (Z.gtb_spec (hi a) (hi h));
    try lia; simpl; (split; [intros y; rewrite ?mem_cons, ?mem_nil; simpl; lia|]); intros b t Hb Ht; simpl;
    repeat (split; [lia|]); (eapply canon_from_weaken; [|exact Ht]; lia).
Qed.

Lemma add_hole_ok : forall l h, canonical l -> lo h <= hi h ->
  canonical (add_hole l h) /\ (forall y, mem y (add_hole l h) <-> mem y l /\ ~ (lo h <= y <= hi h))
  /\ (forall b, canon_from b l -> canon_from b (add_hole l h)).
Proof.
  intros l h H Hh.
  assert (G : forall l b, canon_from b l -> canon_from b (add_hole l h) /\
     (forall y, mem y (add_hole l h) <-> mem y l /\ ~ (lo h <= y <= hi h))).
  { clear l H. unfold add_hole, g_add_hole. induction l as [|i l IH]; intros b H; simpl.
    - split; auto. intros; rewrite mem_nil; tauto.
    - simpl in H. destruct H as (H1 & H2 & H3). destruct (IH _ H3) as [I1 I2].
      destruct (ivl_sub_ok i h H2 Hh) as [S1 S2]. split.
      + apply S2; auto.
      + intros y. rewrite mem_app, mem_cons. unfold ivl_sub in S1. rewrite S1, I2. tauto. }
  apply canonical_from in H as [b H]. destruct (G l b H) as [G1 G2].
  split; [apply canonical_from; eauto|]. split; auto. intros; apply G; auto.
Qed.

Lemma iset_sub_ok : forall m l, canonical l -> canonical m ->
  canonical (iset_sub l m) /\ (forall y, mem y (iset_sub l m) <-> mem y l /\ ~ mem y m)
  /\ (forall b, canon_from b l -> canon_from b (iset_sub l m)).
Proof.
  assert (G : forall m l, canonical l -> (forall i, In i m -> lo i <= hi i) ->
    canonical (iset_sub l m) /\ (forall y, mem y (iset_sub l m) <-> mem y l /\ ~ mem y m)
    /\ (forall b, canon_from b l -> canon_from b (iset_sub l m))).
  { unfold iset_sub, g_sub. induction m as [|h m IH]; intros l Hl Hm; simpl.
    - repeat split; auto; rewrite ?mem_nil in *; tauto.
    - destruct (add_hole_ok l h Hl) as (C1 & M1 & B1); [apply Hm; simpl; auto|].
      destruct (IH _ C1) as (C & M & B); [intros; apply Hm; simpl; auto|]. split; auto. split.
      + intros y. rewrite M, mem_cons. unfold add_hole in M1. rewrite M1. tauto.
      + intros b Hb. apply B. apply B1. auto. }
  intros. apply G; auto. intros; eapply canonical_in; eauto.
Qed.

(** ** Intersection *)
Lemma ivl_and_mem : forall a b y, mem y (ivl_and a b) <-> lo a <= y <= hi a /\ lo b <= y <= hi b.
Proof.
  intros. unfold ivl_and. destruct (Z.ltb_spec (Z.min (hi a) (hi b)) (Z.max (lo a) (lo b)));
  rewrite ?mem_cons, ?mem_nil; simpl; lia.
Qed.

Lemma mem_flat_map : forall A (f : A -> iset) l y, mem y (flat_map f l) <-> exists a, In a l /\ mem y (f a).
Proof.
  induction l as [|a l IH]; simpl; intros.
  - rewrite mem_nil. firstorder.
  - rewrite mem_app, IH. split.
    + intros [H|(b & Hb & H)]; eauto.
    + intros (b & [<-|Hb] & H); eauto.
Qed.

Lemma iset_and_mem : forall l m y, mem y (iset_and l m) <-> mem y l /\ mem y m.
Proof.
  intros. unfold iset_and. rewrite mem_flat_map. split.
  - intros (a & Ha & H). apply mem_flat_map in H as (b & Hb & H). apply ivl_and_mem in H.
    split; [exists a|exists b]; tauto.
  - intros [(a & Ha & H1) (b & Hb & H2)]. exists a. split; auto. apply mem_flat_map. exists b. split; auto.
    apply ivl_and_mem. tauto.
Qed.

Lemma and1_canon : forall m a b c t, canon_from c m -> lo a <= hi a -> b < lo a -> canon_from (hi a + 1) t ->
  canon_from b (flat_map (fun x => ivl_and a x) m ++ t).
Proof.
  intros m a b c t. revert b c. induction m as [|x m IH]; intros b c Hm Ha Hb Ht; simpl.
  - eapply canon_from_weaken; [|eauto]; lia.
  - simpl in Hm. destruct Hm as (H1 & H2 & H3). rewrite <- app_assoc. unfold ivl_and at 1.
    destruct (Z.ltb_spec (Z.min (hi a) (hi x)) (Z.max (lo a) (lo x))).
    + simpl. eapply IH; eauto.
    + simpl. split; [lia|]. split; [lia|].
      (* the rest is above hi x + 1 *)
      assert (K : forall m b c, canon_from c m -> b <= c -> b <= hi a + 1 -> canon_from b (flat_map (fun x => ivl_and a x) m ++ t)).
      { clear - Ha Ht. induction m as [|x m IH]; intros b c Hm Hc Hb; simpl.
        - eapply canon_from_weaken; [|eauto]; lia.
        - simpl in Hm. destruct Hm as (H1 & H2 & H3). rewrite <- app_assoc. unfold ivl_and at 1.
          destruct (Z.ltb_spec (Z.min (hi a) (hi x)) (Z.max (lo a) (lo x))); simpl.
          + eapply IH; eauto; lia.
          + split; [lia|]. split; [lia|]. eapply IH; eauto; lia. }
      eapply K; eauto; lia.
Qed.

Lemma iset_and_canon : forall l m b, canon_from b l -> canonical m -> canon_from b (iset_and l m).
Proof.
  intros l m b Hl Hm. apply canonical_from in Hm as [c Hm]. revert b Hl.
  unfold iset_and. induction l as [|a l IH]; intros b H; simpl; auto.
  simpl in H. destruct H as (H1 & H2 & H3). eapply and1_canon; eauto.
Qed.

Lemma iset_and_ok : forall l m, canonical l -> canonical m ->
  canonical (iset_and l m) /\ (forall y, mem y (iset_and l m) <-> mem y l /\ mem y m).
Proof.
  intros l m Hl Hm. split; [|apply iset_and_mem].
  apply canonical_from in Hl as [b Hl]. apply canonical_from. exists b. apply iset_and_canon; auto.
Qed.

(** ** Containment, overlap, membership *)
Lemma iset_overlaps_ok : forall l m, canonical l -> canonical m ->
  (iset_overlaps l m = true <-> exists y, mem y l /\ mem y m).
Proof.
  intros l m Hl Hm. unfold iset_overlaps. rewrite existsb_exists. split.
  - intros (a & Ha & H). apply existsb_exists in H as (b & Hb & H). unfold ivl_overlaps in H.
    apply canonical_in with (i := a) in Hl; auto. apply canonical_in with (i := b) in Hm; auto.
    exists (Z.max (lo a) (lo b)). split; [exists a|exists b]; split; auto; lia.
  - intros (y & (a & Ha & H1) & (b & Hb & H2)). exists a. split; auto. apply existsb_exists. exists b. split; auto.
    unfold ivl_overlaps. lia.
Qed.

Lemma find_left_canon : forall m x, canonical m -> exists L R, m = L ++ R /\
  (forall i, In i L -> hi i < lo x - 1) /\ (forall i, In i R -> lo x - 1 <= hi i) /\
  find_left m x = Some (Z.of_nat (length L) - 1).
Proof.
  intros m x H. apply canonical_from in H as [b H].
  destruct (canon_split_left _ _ (lo x - 1) H) as (L & R & -> & HL & HR).
  exists L, R. split; [auto|]. split; [auto|]. split; [auto|]. apply find_left_spec; intros i Hi; [apply HL in Hi|apply HR in Hi]; lia.
Qed.

(* An interval is inside a canonical set iff it is inside one of its intervals. *)
Lemma canon_interval_in_one : forall m b x, canon_from b m -> lo x <= hi x ->
  (forall y, lo x <= y <= hi x -> mem y m) -> exists i, In i m /\ lo i <= lo x /\ hi x <= hi i.
Proof.
  induction m as [|i m IH]; intros b x Hm Hx H.
  - exfalso. apply (mem_nil (lo x)). apply H. lia.
  - simpl in Hm. destruct Hm as (H1 & H2 & H3).
    pose proof (H (lo x)) as A. rewrite mem_cons in A. destruct A as [A|A]; [lia| |].
    + exists i. split; [simpl; auto|]. split; [lia|].
      destruct (Z_le_gt_dec (hi x) (hi i)); auto. exfalso.
      pose proof (H (hi i + 1)) as B. rewrite mem_cons in B. destruct B as [B|B]; [lia|lia|].
      eapply canon_from_mem in B; eauto. lia.
    + destruct (IH _ x H3 Hx) as (j & Hj & Hj'); [|exists j; simpl; auto].
      intros y Hy. specialize (H y Hy). apply mem_cons in H as [H|H]; auto.
      eapply canon_from_mem in A; eauto. lia.
Qed.

Lemma contained_loop_ok : forall l m, (forall i, In i l -> lo i <= hi i) -> canonical m ->
  exists b, g_contained_loop Z.pred l m = Some b /\ (b = true <-> (forall y, mem y l -> mem y m)).
Proof.
  induction l as [|x l IH]; intros m Hl Hm; simpl.
  - exists true. split; auto. split; auto. intros _ y H. apply mem_nil in H. tauto.
  - assert (Hx : lo x <= hi x) by (apply Hl; simpl; auto).
    destruct (find_left_canon m x Hm) as (L & R & E & HL & HR & F). unfold find_left in F. rewrite F.
    assert (LEN : length m = (length L + length R)%nat) by (subst; rewrite app_length; auto).
    assert (SUB : (forall y, mem y (x :: l) -> mem y m) -> exists i, In i R /\ lo i <= lo x /\ hi x <= hi i).
    { intros H. pose proof Hm as Hm'. apply canonical_from in Hm' as [b Hm'].
      destruct (canon_interval_in_one m b x Hm' Hx) as (i & Hi & Hi').
      - intros y Hy. apply H. apply mem_cons. auto.
      - exists i. split; auto. rewrite E in Hi. apply in_app_iff in Hi as [Hi|Hi]; auto. apply HL in Hi. lia. }
    destruct (Z.eqb_spec (Z.of_nat (length L) - 1) (Z.of_nat (length m) - 1)) as [EQ|NE].
    + exists false. split; auto. split; [discriminate|]. intros H. apply SUB in H as (i & Hi & _).
      assert (length R = 0)%nat by lia. destruct R; [destruct Hi|discriminate].
    + rewrite py_nth_nonneg by lia. replace (Z.to_nat (Z.of_nat (length L) - 1 + 1)) with (length L) by lia.
      destruct R as [|r R']; [simpl in LEN; lia|].
      replace (nth_error m (length L)) with (Some r)
        by (rewrite E, nth_error_app2, Nat.sub_diag; auto).
      unfold ivl_is_subset.
      assert (FIRST : (forall y, mem y (x :: l) -> mem y m) -> lo r <= lo x /\ hi x <= hi r).
      { intros H. apply SUB in H as (i & [<-|Hi] & Hi'); auto.
        (* r is before i, touches/overlaps from the left side: lo x - 1 <= hi r, and hi r + 1 < lo i <= lo x *)
        exfalso. specialize (HR r (or_introl eq_refl)).
        apply canonical_from in Hm as [b Hm]. rewrite E in Hm. apply canon_from_app in Hm as [_ Hm].
        simpl in Hm. destruct Hm as (_ & _ & Hm). eapply canon_from_in in Hm; eauto. lia. }
      destruct ((lo r <=? lo x) && (hi r >=? hi x)) eqn:S; simpl.
      * destruct (IH m) as (b & Eb & Hb); [intros; apply Hl; simpl; auto|auto|].
        exists b. split; auto. rewrite Hb. split; intros H y Hy.
        -- apply mem_cons in Hy as [Hy|Hy]; auto. exists r. split; [|lia]. rewrite E. apply in_app_iff; simpl; auto.
        -- apply H. apply mem_cons; auto.
      * exists false. split; auto. split; [discriminate|]. intros H. apply FIRST in H. lia.
Qed.

Lemma contained_in_ok : forall l m, canonical l -> canonical m ->
  exists b, contained_in l m = Some b /\ (b = true <-> (forall y, mem y l -> mem y m)).
Proof.
  intros l m Hl Hm.
  assert (G : exists b, g_contained_loop Z.pred l m = Some b /\ (b = true <-> (forall y, mem y l -> mem y m))).
  { apply contained_loop_ok; [intros i Hi; exact (canonical_in l i Hl Hi) | exact Hm]. }
  unfold contained_in, g_contained_in. destruct l as [|x [|? ?]]; auto. destruct m as [|z [|? ?]]; auto.
  exists (ivl_is_subset x z). split; auto. simpl in Hl, Hm. unfold ivl_is_subset.
  split.
  - intros S y Hy. apply mem_cons in Hy as [Hy|Hy]; [|apply mem_nil in Hy; tauto]. apply mem_cons. lia.
  - intros H. pose proof (H (lo x)) as A. pose proof (H (hi x)) as B. rewrite !mem_cons, !mem_nil in A, B.
    lia.
Qed.

Lemma canonical_singleton : forall s e, s <= e -> canonical (get_interval_set s e).
Proof. intros; simpl; auto. Qed.

Lemma iset_contains_ok : forall l x, canonical l ->
  exists b, iset_contains l x = Some b /\ (b = true <-> mem x l).
Proof.
  intros l x H. destruct (contained_in_ok (get_interval_set x x) l) as (b & E & Hb); auto.
  { simpl; lia. }
  exists b. split; auto. rewrite Hb. unfold get_interval_set. split.
  - intros K. apply K. apply mem_cons. simpl. lia.
  - intros K y Hy. apply mem_cons in Hy as [Hy|Hy]; [|apply mem_nil in Hy; tauto]. simpl in Hy.
    assert (y = x) by lia. subst; auto.
Qed.

Lemma iset_bool_ok : forall l, canonical l -> (iset_bool l = true <-> exists x, mem x l).
Proof.
  destruct l as [|i l]; simpl; intros H; split; intros; try discriminate; auto.
  - destruct H0 as [x Hx]. apply mem_nil in Hx; tauto.
  - exists (lo i). apply mem_cons. left; lia.
Qed.
