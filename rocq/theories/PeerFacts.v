(** * Facts about the peer model. *)
From Coq Require Import ZArith List Bool Lia ZifyBool String.
From Verif Require Import IntervalModel IntervalFacts PortProtoModel PortProtoFacts PeerModel.
Import ListNotations.
Local Open Scope Z_scope.

(** ** Positions of addresses *)
Definition vpos (y : Z) : Prop := 0 <= y <= v4max \/ v6min <= y <= v6max.
Definition fam (i : ivl) : Prop :=
  (0 <= lo i /\ lo i <= hi i /\ hi i <= v4max) \/ (v6min <= lo i /\ lo i <= hi i /\ hi i <= v6max).
Definition ipset (l : iset) : Prop := canonical l /\ forall y, mem y l -> vpos y.

Lemma consts : v4max = 4294967295 /\ v6min = 8589934592 /\ v6max = 8589934592 + 340282366920938463463374607431768211455.
Proof. repeat split; vm_compute; reflexivity. Qed.
Ltac zc := destruct consts as (?K4 & ?K6 & ?K7).

Lemma ipset_fam : forall l i, ipset l -> In i l -> fam i.
Proof.
  intros l i [C V] Hi. pose proof (canonical_in _ _ C Hi) as L.
  assert (A : vpos (lo i)) by (apply V; exists i; split; [auto|lia]).
  assert (B : vpos (hi i)) by (apply V; exists i; split; [auto|lia]).
  unfold vpos, fam in *. zc. destruct A as [A|A], B as [B|B]; try lia.
  exfalso. assert (M : vpos (v4max + 1)) by (apply V; exists i; split; [auto|lia]). unfold vpos in M. lia.
Qed.

Lemma fam_vpos : forall i y, fam i -> lo i <= y <= hi i -> vpos y.
Proof. unfold fam, vpos; intros; lia. Qed.

Lemma ipset_nil : ipset [].
Proof. split; [exact I|]. intros y H. apply mem_nil in H. tauto. Qed.

(** ** With address bounds the operations agree with the integer operations *)
Lemma inc_gt : forall a b, fam a -> fam b -> (lo a >? ip_inc (hi b)) = (lo a >? Z.succ (hi b)).
Proof. unfold fam, ip_inc; intros. zc. destruct (Z.eqb_spec (hi b) v4max), (Z.eqb_spec (hi b) v6max); simpl; lia. Qed.
Lemma inc_le : forall a b, fam a -> fam b -> (lo a <=? ip_inc (hi b)) = (lo a <=? Z.succ (hi b)).
Proof. unfold fam, ip_inc; intros. zc. destruct (Z.eqb_spec (hi b) v4max), (Z.eqb_spec (hi b) v6max); simpl; lia. Qed.
Lemma dec_ge : forall a b, fam a -> fam b -> (hi a >=? ip_dec (lo b)) = (hi a >=? Z.pred (lo b)).
Proof. unfold fam, ip_dec; intros. zc. destruct (Z.eqb_spec (lo b) 0), (Z.eqb_spec (lo b) v6min); simpl; lia. Qed.
Lemma dec_lt : forall a b, fam a -> fam b -> (hi a <? ip_dec (lo b)) = (hi a <? Z.pred (lo b)).
Proof. unfold fam, ip_dec; intros. zc. destruct (Z.eqb_spec (lo b) 0), (Z.eqb_spec (lo b) v6min); simpl; lia. Qed.

Lemma touches_eq : forall a b, fam a -> fam b -> g_touches ip_inc a b = g_touches Z.succ a b.
Proof.
  unfold g_touches, ip_inc, fam; intros. zc.
  destruct (Z.gtb_spec (lo a) (hi b)), (Z.gtb_spec (lo b) (hi a)); auto;
  destruct (Z.eqb_spec (hi b) v4max), (Z.eqb_spec (hi b) v6max), (Z.eqb_spec (hi a) v4max), (Z.eqb_spec (hi a) v6max); simpl; lia.
Qed.

Lemma ivl_sub_eq : forall a b, fam a -> fam b -> g_ivl_sub ip_inc ip_dec a b = g_ivl_sub Z.succ Z.pred a b.
Proof.
  unfold g_ivl_sub, ivl_overlaps, ivl_is_subset, ip_inc, ip_dec, fam; intros. zc.
  destruct (Z.geb_spec (hi b) (lo a)), (Z.leb_spec (lo b) (hi a)),
    (Z.leb_spec (lo b) (lo a)), (Z.geb_spec (hi b) (hi a)), (Z.ltb_spec (lo a) (lo b)), (Z.gtb_spec (hi a) (hi b)); simpl; try lia; auto;
  destruct (Z.eqb_spec (hi b) v4max), (Z.eqb_spec (hi b) v6max), (Z.eqb_spec (lo b) 0), (Z.eqb_spec (lo b) v6min); simpl; try lia; auto.
Qed.

Lemma fil_eq : forall l x, (forall i, In i l -> fam i) -> fam x -> forall fuel low high,
  g_fil_loop ip_dec fuel l (lo x) low high = g_fil_loop Z.pred fuel l (lo x) low high.
Proof.
  intros l x Hl Hx. induction fuel as [|f IH]; intros low high; cbn [g_fil_loop]; auto.
  destruct (Nat.eqb low high).
  - destruct (nth_error l _) as [i|] eqn:E; auto. rewrite (dec_ge i x); auto. eapply Hl, nth_error_In, E.
  - cbv zeta. destruct (nth_error l (Nat.div2 (low + high))) as [i|] eqn:E; auto.
    rewrite (dec_lt i x); auto; [|eapply Hl, nth_error_In, E].
    rewrite !IH. destruct (hi i <? Z.pred (lo x)); auto. destruct (Nat.eqb _ _); auto.
    destruct (nth_error l (S _)) as [j|] eqn:E2; auto. rewrite (dec_ge j x); auto. eapply Hl, nth_error_In, E2.
Qed.
Lemma fir_eq : forall l x, (forall i, In i l -> fam i) -> fam x -> forall fuel low high,
  g_fir_loop ip_inc fuel l (hi x) low high = g_fir_loop Z.succ fuel l (hi x) low high.
Proof.
  intros l x Hl Hx. induction fuel as [|f IH]; intros low high; cbn [g_fir_loop]; auto.
  destruct (Nat.eqb low high).
  - destruct (nth_error l _) as [i|] eqn:E; auto. rewrite (inc_le i x); auto. eapply Hl, nth_error_In, E.
  - cbv zeta. destruct (nth_error l (Nat.div2 (low + high))) as [i|] eqn:E; auto.
    rewrite (inc_gt i x); auto; [|eapply Hl, nth_error_In, E].
    rewrite !IH. destruct (lo i >? Z.succ (hi x)); auto. destruct (Nat.eqb _ _); auto.
    destruct (nth_error l (_ - 1)%nat) as [j|] eqn:E2; auto. rewrite (inc_le j x); auto. eapply Hl, nth_error_In, E2.
Qed.

Lemma py_nth_In {A} : forall (l : list A) k x, py_nth l k = Some x -> In x l.
Proof. unfold py_nth; intros l k x. destruct (_ || _); intros H; [discriminate|]. eapply nth_error_In; eauto. Qed.

Lemma add_interval_eq : forall l x, (forall i, In i l -> fam i) -> fam x -> ipb_add_interval l x = add_interval l x.
Proof.
  intros l x Hl Hx. unfold ipb_add_interval, add_interval, g_add_interval. destruct l as [|a l']; auto.
  set (l := a :: l') in *. unfold g_find_left, g_find_right. subst l. cbv iota. set (l := a :: l') in *.
  rewrite fil_eq, fir_eq; auto.
  destruct (g_fil_loop Z.pred _ _ _ _ _) as [lft|]; auto. destruct (g_fir_loop Z.succ _ _ _ _ _) as [rgt|]; auto.
  cbv zeta. destruct (_ && _ && _); auto. destruct (_ && _); auto. destruct (_ && _); auto.
  destruct (py_nth l (lft + 1)) as [il|] eqn:E1; auto. set (rg := if rgt >=? 0 then rgt - 1 else _).
  destruct (py_nth l rg) as [ir|] eqn:E2; auto.
  rewrite (touches_eq il x), (touches_eq ir x); auto; apply Hl; eapply py_nth_In; eauto.
Qed.

Lemma ipb_add_interval_ok : forall l x, ipset l -> fam x ->
  exists r, ipb_add_interval l x = Some r /\ ipset r /\ forall y, mem y r <-> mem y l \/ lo x <= y <= hi x.
Proof.
  intros l x Hl Hx. rewrite add_interval_eq; auto; [|intros; eapply ipset_fam; eauto].
  destruct (add_interval_ok l x) as (r & E & C & M & _); [apply Hl|unfold fam in Hx; lia|].
  exists r. split; auto. split; auto. split; auto. intros y Hy. apply M in Hy. destruct Hy; [apply Hl; auto|eapply fam_vpos; eauto].
Qed.

Lemma ipb_add_hole_ok : forall l h, ipset l -> fam h ->
  ipset (ipb_add_hole l h) /\ forall y, mem y (ipb_add_hole l h) <-> mem y l /\ ~ (lo h <= y <= hi h).
Proof.
  intros l h Hl Hh. assert (E : ipb_add_hole l h = add_hole l h).
  { unfold ipb_add_hole, add_hole, g_add_hole. rewrite !flat_map_concat_map. f_equal. apply map_ext_in. intros i Hi.
    apply ivl_sub_eq; auto. eapply ipset_fam; eauto. }
  rewrite E. destruct (add_hole_ok l h) as (C & M & _); [apply Hl|unfold fam in Hh; lia|].
  split; auto. split; auto. intros y Hy. apply M in Hy. apply Hl. tauto.
Qed.

Lemma ipb_or_ok : forall m l, ipset l -> ipset m ->
  exists r, ipb_or l m = Some r /\ ipset r /\ forall y, mem y r <-> mem y l \/ mem y m.
Proof.
  intros m l Hl Hm. assert (F : forall i, In i m -> fam i) by (intros i Hi; exact (ipset_fam m i Hm Hi)). clear Hm.
  revert l Hl. unfold ipb_or. induction m as [|x m IH]; intros l Hl; cbn [g_or].
  - exists l. split; auto. split; auto. intros y. rewrite mem_nil. tauto.
  - destruct (ipb_add_interval_ok l x Hl) as (l1 & E1 & H1 & M1); [apply F; left; auto|].
    destruct (IH (fun i Hi => F i (or_intror Hi)) l1 H1) as (r & E & Hr & M).
    exists r. unfold ipb_add_interval in E1. rewrite E1. split; auto. split; auto. intros y. rewrite M, M1, mem_cons. tauto.
Qed.

Lemma ipb_sub_ok : forall m l, ipset l -> ipset m ->
  ipset (ipb_sub l m) /\ forall y, mem y (ipb_sub l m) <-> mem y l /\ ~ mem y m.
Proof.
  intros m l Hl Hm. assert (F : forall i, In i m -> fam i) by (intros i Hi; exact (ipset_fam m i Hm Hi)). clear Hm.
  revert l Hl. unfold ipb_sub, g_sub. induction m as [|x m IH]; intros l Hl; cbn [fold_left].
  - split; auto. intros y. rewrite mem_nil. tauto.
  - destruct (ipb_add_hole_ok l x Hl) as (H1 & M1); [apply F; left; auto|].
    destruct (IH (fun i Hi => F i (or_intror Hi)) _ H1) as (Hr & M).
    split; auto. intros y. rewrite M. unfold ipb_add_hole in M1. rewrite M1, mem_cons. tauto.
Qed.

Lemma ipb_and_ok : forall l m, ipset l -> ipset m ->
  ipset (ipb_and l m) /\ forall y, mem y (ipb_and l m) <-> mem y l /\ mem y m.
Proof.
  intros l m Hl Hm. destruct (iset_and_ok l m) as (C & M); [apply Hl|apply Hm|].
  split; [split; auto|auto]. intros y Hy. apply M in Hy. apply Hl. tauto.
Qed.

Lemma ipb_contained_ok : forall l m, ipset l -> ipset m ->
  exists b, ipb_contained_in l m = Some b /\ (b = true <-> forall y, mem y l -> mem y m).
Proof.
  intros l m Hl Hm. assert (E : ipb_contained_in l m = contained_in l m).
  { unfold ipb_contained_in, contained_in, g_contained_in.
    assert (F : forall i, In i l -> fam i) by (intros i Hi; exact (ipset_fam l i Hl Hi)).
    assert (Fm : forall i, In i m -> fam i) by (intros i Hi; exact (ipset_fam m i Hm Hi)). clear Hl Hm.
    assert (G : g_contained_loop ip_dec l m = g_contained_loop Z.pred l m).
    { induction l as [|x l IH]; auto. cbn [g_contained_loop]. rewrite IH by (intros; apply F; right; auto).
      replace (g_find_left ip_dec m x) with (g_find_left Z.pred m x); auto.
      unfold g_find_left. destruct m; auto. rewrite fil_eq; [auto|exact Fm|]. apply F. left; auto. }
    destruct l as [|x [|]]; auto; destruct m as [|y [|]]; auto. }
  rewrite E. apply contained_in_ok; [apply Hl|apply Hm].
Qed.

(** ** CIDRs *)
Definition cidr_ok (c : cidr) : Prop := 0 <= cprefix c <= width (c6 c) /\ 0 <= cnum c < 2 ^ width (c6 c).
Definition addr_ok (a : addr) : Prop := 0 <= num a < 2 ^ width (is6 a).
(** The addresses of a CIDR: same family, and the same first [cprefix] bits. *)
Definition in_cidr (a : addr) (c : cidr) : Prop :=
  is6 a = c6 c /\ num a / 2 ^ (width (c6 c) - cprefix c) = cnum c / 2 ^ (width (c6 c) - cprefix c).

Lemma pow32 : 2 ^ 32 = v4max + 1. Proof. reflexivity. Qed.
Lemma pow128 : 2 ^ 128 = v6max - v6min + 1. Proof. reflexivity. Qed.

Lemma pos_vpos : forall a, addr_ok a -> vpos (pos a).
Proof. unfold addr_ok, vpos, pos, width. intros [[] n]; cbn [is6 num]; rewrite ?pow32, ?pow128; zc; intros; lia. Qed.
Lemma pos_inj : forall a b, addr_ok a -> addr_ok b -> pos a = pos b -> a = b.
Proof.
  unfold addr_ok, pos, width. intros [[] n] [[] m]; cbn [is6 num]; rewrite ?pow32, ?pow128; zc; intros; try lia; f_equal; lia.
Qed.
Lemma pos_surj : forall y, vpos y -> exists a, addr_ok a /\ pos a = y.
Proof.
  unfold vpos, addr_ok, pos, width. intros y [H|H].
  - exists (Addr false y). cbn [is6 num]. rewrite pow32. lia.
  - exists (Addr true (y - v6min)). cbn [is6 num]. rewrite pow128. lia.
Qed.

Lemma cidr_block : forall c, cidr_ok c -> let B := 2 ^ (width (c6 c) - cprefix c) in
  B > 0 /\ exists q, 0 <= q /\ cnum c - cnum c mod B = q * B /\ q = cnum c / B /\ (q + 1) * B <= 2 ^ width (c6 c).
Proof.
  intros c [P N] B. assert (HB : B > 0) by (unfold B; apply Z.lt_gt, Z.pow_pos_nonneg; lia).
  split; auto. exists (cnum c / B).
  assert (HW : 2 ^ width (c6 c) = B * 2 ^ cprefix c) by (unfold B; rewrite <- Z.pow_add_r by lia; f_equal; lia).
  assert (D := Z.div_mod (cnum c) B). assert (Q : 0 <= cnum c / B) by (apply Z.div_pos; lia).
  repeat split; auto; try lia.
  assert (cnum c / B < 2 ^ cprefix c) by (apply Z.div_lt_upper_bound; lia).
  rewrite HW. nia.
Qed.

Lemma cidr_fam : forall c, cidr_ok c -> fam (cidr_ivl c).
Proof.
  intros c H. destruct (cidr_block c H) as (HB & q & Q0 & E & _ & U). set (B := 2 ^ (width (c6 c) - cprefix c)) in *.
  unfold fam, cidr_ivl. fold B. rewrite E. unfold pos. cbn [lo hi is6 num].
  destruct (c6 c); cbn [width] in U; rewrite ?pow32, ?pow128 in U; nia.
Qed.

Lemma cidr_mem : forall c a, cidr_ok c -> addr_ok a ->
  (lo (cidr_ivl c) <= pos a <= hi (cidr_ivl c) <-> in_cidr a c).
Proof.
  intros c a H Ha. destruct (cidr_block c H) as (HB & q & Q0 & E & Eq & U). set (B := 2 ^ (width (c6 c) - cprefix c)) in *.
  unfold cidr_ivl, in_cidr. fold B. rewrite E, <- Eq. unfold pos. cbn [lo hi is6 num].
  assert (D := Z.div_mod (num a) B ltac:(lia)). assert (M := Z.mod_pos_bound (num a) B ltac:(lia)).
  set (k := num a / B) in *. set (r := num a mod B) in *. unfold addr_ok in Ha.
  assert (W : is6 a = c6 c -> (q * B <= num a <= q * B + B - 1 <-> k = q)).
  { intros _. split; [intros; nia|intros ->; lia]. }
  destruct (is6 a), (c6 c); cbn [width] in *; rewrite ?pow32, ?pow128 in *; zc;
    (split; [intros S; split; [try reflexivity; exfalso; nia|apply W; auto; lia]|
             intros [S1 S2]; try discriminate S1; apply W in S2; auto; lia]).
Qed.

Lemma add_cidr_ok : forall exc l c, ipset l -> cidr_ok c -> Forall cidr_ok exc ->
  (Forall (fun e => c6 e = c6 c) exc ->
   exists r, add_cidr l c exc = Some r /\ ipset r /\
     forall a, addr_ok a -> (mem (pos a) r <-> (mem (pos a) l \/ in_cidr a c) /\ ~ Exists (in_cidr a) exc))
  /\ (Exists (fun e => c6 e <> c6 c) exc -> add_cidr l c exc = None).
Proof.
  intros exc l c Hl Hc He. unfold add_cidr.
  destruct (ipb_add_interval_ok l _ Hl (cidr_fam c Hc)) as (r0 & E0 & H0 & M0). rewrite E0.
  assert (None_stays : forall es, fold_left (fun acc e => bind acc (fun l' =>
               if Bool.eqb (c6 e) (c6 c) then Some (ipb_add_hole l' (cidr_ivl e)) else None)) es None = None).
  { induction es; auto. }
  assert (M0' : forall a, addr_ok a -> (mem (pos a) r0 <-> mem (pos a) l \/ in_cidr a c)).
  { intros a Ha. rewrite M0, (cidr_mem c a); tauto. }
  split.
  - intros Hf. clear E0 M0. revert r0 H0 M0'.
    assert (G : forall r0, ipset r0 -> exists r, fold_left (fun acc e => bind acc (fun l' =>
               if Bool.eqb (c6 e) (c6 c) then Some (ipb_add_hole l' (cidr_ivl e)) else None)) exc (Some r0) = Some r
         /\ ipset r /\ forall a, addr_ok a -> (mem (pos a) r <-> mem (pos a) r0 /\ ~ Exists (in_cidr a) exc)).
    { induction exc as [|e exc IH]; intros r0 H0; cbn [fold_left].
      - exists r0. split; auto. split; auto. intros a Ha. rewrite Exists_nil. tauto.
      - inversion He as [|? ? He1 He2]; subst. inversion Hf as [|? ? Hf1 Hf2]; subst. cbn [bind]. rewrite Hf1, Bool.eqb_reflx.
        destruct (ipb_add_hole_ok r0 _ H0 (cidr_fam e He1)) as [H1 M1].
        destruct (IH He2 Hf2 _ H1) as (r & E & Hr & M). exists r. split; auto. split; auto.
        intros a Ha. rewrite M, M1, Exists_cons, (cidr_mem e a) by auto. tauto. }
    intros r0 H0 M0. destruct (G r0 H0) as (r & E & Hr & M). exists r. split; auto. split; auto.
    intros a Ha. rewrite M, M0 by auto. tauto.
  - clear - None_stays. revert r0. induction exc as [|e exc IH]; intros r0 Hx; [inversion Hx|]. cbn [fold_left bind].
    destruct (Bool.eqb (c6 e) (c6 c)) eqn:E; [|apply None_stays].
    apply IH. inversion Hx; auto. apply eqb_prop in E. congruence.
Qed.

(** ** split, ip_count, is_ipv4_block *)
Lemma NoDup_app_intro {A} : forall l m : list A, NoDup l -> NoDup m -> (forall x, In x l -> In x m -> False) -> NoDup (l ++ m)%list.
Proof.
  induction l as [|a l IH]; intros m Hl Hm D; cbn [app]; auto. inversion Hl; subst. constructor.
  - rewrite in_app_iff. intros [H|H]; [auto|]. apply (D a); simpl; auto.
  - apply IH; auto. intros x H1' H2'. apply (D x); simpl; auto.
Qed.
Lemma filter_len_le {A} (f : A -> bool) : forall l, (List.length (filter f l) <= List.length l)%nat.
Proof. induction l as [|a l IH]; cbn [filter List.length]; auto. destruct (f a); cbn [List.length]; lia. Qed.
Lemma canonical_sub1 : forall l i, ipset l -> In i l -> ipset [i].
Proof.
  intros l i Hl Hi. pose proof (ipset_fam _ _ Hl Hi) as F. split.
  - simpl. unfold fam in F. lia.
  - intros y Hy. apply mem_cons in Hy. destruct Hy as [Hy|Hy]; [eapply fam_vpos; eauto|apply mem_nil in Hy; tauto].
Qed.
Lemma mem_single : forall y i, mem y [i] <-> lo i <= y <= hi i.
Proof. intros. rewrite mem_cons, mem_nil. tauto. Qed.

Lemma canonical_nth_disjoint : forall l j k a b y, canonical l -> nth_error l j = Some a -> nth_error l k = Some b ->
  lo a <= y <= hi a -> lo b <= y <= hi b -> j = k.
Proof.
  intros l. assert (G : forall l b0 j k a b y, canon_from b0 l -> nth_error l j = Some a -> nth_error l k = Some b ->
    lo a <= y <= hi a -> lo b <= y <= hi b -> j = k).
  { clear l. induction l as [|i l IH]; intros b0 j k a b y C Ea Eb Ya Yb; [destruct j; discriminate|].
    simpl in C. destruct C as (C1 & C2 & C3). destruct j as [|j], k as [|k]; cbn [nth_error] in *; auto.
    - injection Ea as <-. assert (hi i + 1 < y); [eapply canon_from_mem; [exact C3|]; exists b; split; [eapply nth_error_In; eauto|lia]|lia].
    - injection Eb as <-. assert (hi i + 1 < y); [eapply canon_from_mem; [exact C3|]; exists a; split; [eapply nth_error_In; eauto|lia]|lia].
    - f_equal. eapply IH; eauto. }
  intros j k a b y C. apply canonical_from in C as [b0 C]. intros. eapply G; eauto.
Qed.

Lemma ip_count_acc : forall l n, fold_left (fun res i => res + (hi i - lo i + 1)) l n = n + ip_count l.
Proof.
  unfold ip_count. induction l as [|i l IH]; intros n; cbn [fold_left]; [lia|]. rewrite IH, (IH (0 + _)). lia.
Qed.
Lemma zrange_length : forall a b, List.length (zrange a b) = Z.to_nat (b - a + 1).
Proof. intros. unfold zrange. rewrite map_length, seq_length. auto. Qed.
Lemma zrange_NoDup : forall a b, NoDup (zrange a b).
Proof. intros. unfold zrange. apply FinFun.Injective_map_NoDup; [intros x y; lia|apply seq_NoDup]. Qed.

Lemma ip_count_ok : forall l, canonical l ->
  exists ys, NoDup ys /\ (forall y, In y ys <-> mem y l) /\ Z.of_nat (List.length ys) = ip_count l.
Proof.
  assert (G : forall l b, canon_from b l -> exists ys, NoDup ys /\ (forall y, In y ys <-> mem y l) /\ Z.of_nat (List.length ys) = ip_count l).
  { induction l as [|i l IH]; intros b C.
    - exists []. split; [constructor|]. split; [|reflexivity]. intros. rewrite mem_nil. tauto.
    - simpl in C. destruct C as (C1 & C2 & C3). destruct (IH _ C3) as (ys & N & M & L).
      exists (zrange (lo i) (hi i) ++ ys)%list. split; [|split].
      + apply NoDup_app_intro; auto using zrange_NoDup. intros x Hx Hy. apply zrange_In in Hx. apply M in Hy.
        apply (canon_from_mem _ _ _ C3) in Hy. lia.
      + intros y. rewrite in_app_iff, zrange_In, M, mem_cons. tauto.
      + rewrite app_length, zrange_length. unfold ip_count. cbn [fold_left]. rewrite ip_count_acc, <- L. lia. }
  intros l C. apply canonical_from in C as [b C]. eauto.
Qed.

Lemma is_ipv4_ok : forall l, ipset l -> (is_ipv4_block l = true <-> forall y, mem y l -> y <= v4max).
Proof.
  intros l Hl. unfold is_ipv4_block.
  assert (Cnt : forall l n, fold_left (fun cnt i => if lo i <=? v4max then S cnt else cnt) l n
     = (n + List.length (filter (fun i => (lo i <=? v4max)%Z) l))%nat).
  { clear. induction l as [|i l IH]; intros n; cbn [fold_left filter]; [cbn [List.length]; lia|].
    rewrite IH. destruct (lo i <=? v4max); cbn [List.length]; lia. }
  rewrite Cnt, Nat.eqb_eq. cbn [Nat.add].
  assert (Lt : forall l : iset, (List.length (filter (fun i => (lo i <=? v4max)%Z) l) = List.length l <-> forall i, In i l -> lo i <= v4max)).
  { clear. induction l as [|i l IH]; cbn [filter List.length]; [split; [intros _ i []|auto]|].
    assert (Le := filter_len_le (fun i => (lo i <=? v4max)%Z) l).
    destruct (Z.leb_spec (lo i) v4max); cbn [List.length].
    - split.
      + intros H1 j [<-|Hj]; auto. apply IH; auto.
      + intros H1. f_equal. apply IH. intros; apply H1; right; auto.
    - split; [lia|]. intros H1. specialize (H1 i (or_introl eq_refl)). lia. }
  rewrite Lt. split.
  - intros H y (i & Hi & Hy). pose proof (ipset_fam _ _ Hl Hi) as F. specialize (H i Hi). unfold fam in F. zc. lia.
  - intros H i Hi. apply H. exists i. split; auto. pose proof (ipset_fam _ _ Hl Hi) as F. unfold fam in F. lia.
Qed.

(** ** _add_interval_to_list *)
Definition disj (b c : iset) : Prop := forall y, mem y b -> mem y c -> False.
Fixpoint pdisj (bs : list iset) : Prop :=
  match bs with [] => True | b :: t => (forall c, In c t -> disj b c) /\ pdisj t end.
Definition inU (y : Z) (bs : list iset) : Prop := exists b, In b bs /\ mem y b.
Definition blk (b : iset) : Prop := ipset b /\ exists y, mem y b.

Lemma pdisj_app : forall l m, pdisj (l ++ m) <-> pdisj l /\ pdisj m /\ forall b c, In b l -> In c m -> disj b c.
Proof.
  induction l as [|a l IH]; intros m; cbn [app pdisj].
  - split; [intros H; split; [exact I|split; [auto|intros b c []]]|tauto].
  - rewrite IH. split.
    + intros (H1 & H2 & H3 & H4). split; [split; [intros; apply H1, in_app_iff; auto|auto]|]. split; auto.
      intros b c [<-|Hb] Hc; [apply H1, in_app_iff; auto|auto].
    + intros ((H1 & H2) & H3 & H4). split; [|split; [auto|split; [auto|intros; apply H4; simpl; auto]]].
      intros c Hc. apply in_app_iff in Hc. destruct Hc; [auto|apply H4; simpl; auto].
Qed.

Lemma inU_cons : forall y b bs, inU y (b :: bs) <-> mem y b \/ inU y bs.
Proof. unfold inU; intros; split; [intros (c & [<-|H] & M); eauto|intros [H|(c & H & M)]; [exists b|exists c]; simpl; auto]. Qed.
Lemma inU_nil : forall y, inU y [] <-> False.
Proof. unfold inU; split; [intros (b & [] & _)|tauto]. Qed.
Lemma inU_app : forall y l m, inU y (l ++ m) <-> inU y l \/ inU y m.
Proof.
  induction l as [|a l IH]; intros m; cbn [app]; [rewrite inU_nil; tauto|]. rewrite !inU_cons, IH. tauto.
Qed.

(** The effect of the loop.  [c] is a piece of [b] not cut by [interval]. *)
Definition uncut (c interval : iset) : Prop := (forall y, mem y c -> mem y interval) \/ disj c interval.

Lemma ail_loop_ok : forall blocks interval bs iv ta, ipset interval -> (forall b, In b blocks -> blk b) -> pdisj blocks ->
  ail_loop interval blocks = (bs, iv, ta) ->
  ipset iv /\ (forall y, mem y iv <-> mem y interval /\ ~ inU y blocks)
  /\ (forall c, In c (bs ++ ta) -> blk c /\ uncut c interval /\ exists b, In b blocks /\ forall y, mem y c -> mem y b)
  /\ (forall y, inU y (bs ++ ta) <-> inU y blocks)
  /\ pdisj (bs ++ ta).
Proof.
  induction blocks as [|b rest IH]; intros interval bs iv ta Hi Hb Hd E; cbn [ail_loop] in E.
  - injection E as <- <- <-. split; auto. split; [intros y; rewrite inU_nil; tauto|]. split; [intros c []|].
    split; [tauto|exact I].
  - assert (Bb : blk b) by (apply Hb; left; auto). assert (Hb' : forall b, In b rest -> blk b) by (intros; apply Hb; right; auto).
    cbn [pdisj] in Hd. destruct Hd as [Hd1 Hd2].
    destruct (iset_overlaps b interval) eqn:Ov; cbn [negb] in E.
    2:{ destruct (ail_loop interval rest) as [[bs1 iv1] ta1] eqn:E1. injection E as <- <- <-.
        destruct (IH _ _ _ _ Hi Hb' Hd2 E1) as (I1 & I2 & I3 & I4 & I5).
        assert (Dj : disj b interval).
        { intros y H1 H2. assert (iset_overlaps b interval = true); [|congruence].
          apply iset_overlaps_ok; [apply Bb|apply Hi|eauto]. }
        split; auto. split.
        { intros y. rewrite I2, inU_cons. split; [intros [? ?]; split; auto; intros [?|?]; auto; eapply Dj; eauto|tauto]. }
        cbn [app]. split.
        { intros c [<-|Hc].
          - split; auto. split; [right; auto|]. exists b. split; [left; auto|auto].
          - destruct (I3 c Hc) as (C1 & C2 & b0 & C3 & C4). split; auto. split; auto. exists b0. split; [right; auto|auto]. }
        split; [intros y; rewrite !inU_cons, I4; tauto|]. cbn [pdisj]. split; auto.
        intros c Hc y H1 H2. destruct (I3 c Hc) as (_ & _ & b0 & C3 & C4). eapply (Hd1 b0); eauto. }
    destruct (ipb_and_ok b interval) as [In1 In2]; [apply Bb|auto|]. set (inter := ipb_and b interval) in *.
    assert (Hinter : blk inter).
    { split; auto. apply iset_overlaps_ok in Ov; [|apply Bb|apply Hi]. destruct Ov as (y & ?). exists y. apply In2; auto. }
    destruct (ipb_sub_ok inter interval Hi In1) as [S1 S2]. set (interval' := ipb_sub interval inter) in *.
    destruct (ipb_sub_ok inter b (proj1 Bb) In1) as [T1 T2].
    set (changed := negb (iset_eqb b inter)) in *.
    (* the pieces of b *)
    assert (P : exists b', (if changed then ipb_sub b inter else b) = b' /\ blk b' /\ uncut b' interval
        /\ (forall y, mem y b' -> mem y b) /\ (forall y, mem y b <-> mem y b' \/ (changed = true /\ mem y inter))
        /\ (changed = true -> disj b' inter)).
    { destruct changed eqn:Ch.
      - exists (ipb_sub b inter). split; auto. split; [split; auto|].
        { destruct (ipb_sub b inter) as [|i0 l0] eqn:Es.
          - exfalso. unfold changed in Ch. apply negb_true_iff in Ch.
            assert (iset_eqb b inter = true); [|congruence]. apply iset_eqb_eq. apply canonical_ext; [apply Bb|apply In1|].
            intros x. split; [|rewrite In2; tauto]. intros Hx.
            assert (D : mem x inter \/ ~ mem x inter).
            { rewrite In2. destruct (iset_contains_ok interval x) as (bb & _ & Hbb); [apply Hi|]. destruct bb; [left|right].
              - split; auto. apply Hbb; auto. - intros [_ H]. apply Hbb in H. discriminate. }
            destruct D; auto. exfalso. apply (mem_nil x). apply T2; auto.
          - exists (lo i0). exists i0. split; [left; auto|]. destruct T1 as [T1 _]. simpl in T1. lia. }
        split. { right. intros y Hy1 Hy2. apply T2 in Hy1. apply (proj2 Hy1), In2. tauto. }
        split; [intros y Hy; apply T2 in Hy; tauto|]. split.
        { intros y. rewrite T2. destruct (iset_contains_ok inter y) as (bb & _ & Hbb); [apply In1|].
          assert (D : mem y inter \/ ~ mem y inter) by (destruct bb; [left; apply Hbb; auto|right; intros H; apply Hbb in H; discriminate]).
          assert (mem y inter -> mem y b) by (rewrite In2; tauto). tauto. }
        intros _ y Hy1 Hy2. apply T2 in Hy1. tauto.
      - exists b. split; auto. split; auto. unfold changed in Ch. apply negb_false_iff, iset_eqb_eq in Ch.
        split. { left. intros y Hy. rewrite Ch in Hy. apply In2 in Hy. tauto. }
        split; auto. split; [intros y; split; [auto|intros [?|[? ?]]; [auto|discriminate]]|discriminate]. }
    destruct P as (b' & Eb' & P1 & P2 & P3 & P4 & P5). rewrite Eb' in E.
    assert (Uinter : uncut inter interval) by (left; intros y; rewrite In2; tauto).
    assert (Restd : forall c y, In c rest -> mem y c -> (mem y interval <-> mem y interval')).
    { intros c y Hc Hy. rewrite S2. split; [|tauto]. intros H. split; auto. rewrite In2. intros [H1 _]. eapply Hd1; eauto. }
    destruct (iset_bool interval') eqn:Bo; cbn [negb] in E.
    + destruct (ail_loop interval' rest) as [[bs1 iv1] ta1] eqn:E1. injection E as <- <- <-.
      destruct (IH _ _ _ _ S1 Hb' Hd2 E1) as (I1 & I2 & I3 & I4 & I5).
      assert (Q : forall c, In c (bs1 ++ ta1) -> blk c /\ uncut c interval /\ disj b c /\ exists b0, In b0 rest /\ (forall y, mem y c -> mem y b0)).
      { intros c Hc. destruct (I3 c Hc) as (C1 & C2 & b0 & C3 & C4). split; auto. split; [|split; [|eauto]].
        - destruct C2 as [C2|C2]; [left|right]; intros y Hy.
          + apply (Restd b0 y); auto.
          + intros H. apply (C2 y); auto. apply (Restd b0 y); auto.
        - intros y H1 H2. eapply Hd1; eauto. }
      split; auto. split.
      { intros y. rewrite I2, S2, In2, inU_cons. split; [intros [[? ?] ?]; split; [auto|]|tauto]. intros [?|?]; tauto. }
      set (ta := if changed then inter :: ta1 else ta1).
      assert (Tin : forall c, In c ((b' :: bs1) ++ ta) <-> c = b' \/ In c (bs1 ++ ta1) \/ (changed = true /\ c = inter)).
      { intros c. unfold ta. cbn [app In]. rewrite !in_app_iff. destruct changed; cbn [In]; intuition congruence. }
      split; [|split].
      * intros c Hc. apply Tin in Hc. destruct Hc as [->|[Hc|[Hch ->]]].
        -- split; auto. split; auto. exists b. split; [left; auto|auto].
        -- destruct (Q c Hc) as (C1 & C2 & _ & b0 & C3 & C4). split; auto. split; auto. exists b0. split; [right; auto|auto].
        -- split; auto. split; auto. exists b. split; [left; auto|]. intros y Hy; apply In2 in Hy; tauto.
      * intros y. rewrite inU_cons, P4, <- I4. unfold inU at 1. split.
        -- intros (c & Hc & Hy). apply Tin in Hc. destruct Hc as [->|[Hc|[Hch ->]]]; auto. right. exists c; auto.
        -- intros [[H|[H1 H2]]|(c & Hc & Hy)]; [exists b'|exists inter|exists c]; (split; [apply Tin|]; auto).
      * apply pdisj_app. apply pdisj_app in I5. destruct I5 as (J1 & J2 & J3).
        assert (Db : forall c, In c (bs1 ++ ta1) -> disj b' c) by (intros c Hc y H1 H2; eapply (proj1 (proj2 (proj2 (Q c Hc)))); eauto).
        assert (Dn : forall c, In c (bs1 ++ ta1) -> disj inter c).
        { intros c Hc y H1 H2. apply In2 in H1. eapply (proj1 (proj2 (proj2 (Q c Hc)))); [exact (proj1 H1)|auto]. }
        split; [cbn [pdisj]; split; [intros c Hc; apply Db, in_app_iff; auto|auto]|]. split.
        -- unfold ta. destruct changed; auto. cbn [pdisj]. split; auto. intros c Hc. apply Dn, in_app_iff; auto.
        -- intros x c Hx Hc. unfold ta in Hc. destruct Hx as [<-|Hx].
           ++ destruct changed eqn:Ch; [destruct Hc as [<-|Hc]; [apply P5; auto|]|]; apply Db, in_app_iff; auto.
           ++ destruct changed eqn:Ch; [destruct Hc as [<-|Hc]; [|apply J3; auto]|apply J3; auto].
              intros y H1 H2. eapply (Dn x); eauto. apply in_app_iff; auto.
    + injection E as <- <- <-.
      assert (Em : forall y, mem y interval -> mem y inter).
      { intros y Hy. destruct (iset_contains_ok inter y) as (bb & _ & Hbb); [apply In1|]. destruct bb; [apply Hbb; auto|]. exfalso.
        assert (iset_bool interval' = true); [|congruence]. apply iset_bool_ok; [apply S1|]. exists y. apply S2. split; auto.
        intros H; apply Hbb in H; discriminate. }
      split; auto. split.
      { intros y. rewrite S2, inU_cons, In2. split; [intros [? H]; exfalso; apply H; apply In2, Em; auto|intros [? H]; exfalso; apply H; left; eapply In2, Em; auto]. }
      set (ta := if changed then [inter] else []).
      assert (Tin : forall c, In c ((b' :: rest) ++ ta) <-> c = b' \/ In c rest \/ (changed = true /\ c = inter)).
      { intros c. unfold ta. cbn [app In]. rewrite !in_app_iff. destruct changed; cbn [In]; intuition congruence. }
      assert (Dr : forall c, In c rest -> disj c interval).
      { intros c Hc y H1 H2. apply Em, In2 in H2. eapply Hd1; [eauto|exact (proj1 H2)|auto]. }
      split; [|split].
      * intros c Hc. apply Tin in Hc. destruct Hc as [->|[Hc|[Hch ->]]].
        -- split; auto. split; auto. exists b. split; [left; auto|auto].
        -- split; [auto|]. split; [right; auto|]. exists c. split; [right; auto|auto].
        -- split; auto. split; auto. exists b. split; [left; auto|]. intros y Hy; apply In2 in Hy; tauto.
      * intros y. rewrite inU_cons, P4. unfold inU. split.
        -- intros (c & Hc & Hy). apply Tin in Hc. destruct Hc as [->|[Hc|[Hch ->]]]; auto. right. exists c; auto.
        -- intros [[H|[H1 H2]]|(c & Hc & Hy)]; [exists b'|exists inter|exists c]; (split; [apply Tin|]; auto).
      * apply pdisj_app. split; [cbn [pdisj]; split; auto|].
        { intros c Hc y H1 H2. eapply Hd1; eauto. }
        split; [unfold ta; destruct changed; cbn; auto; split; [intros c []|exact I]|].
        intros x c Hx Hc. unfold ta in Hc. destruct changed eqn:Ch; [|destruct Hc]. destruct Hc as [<-|[]].
        destruct Hx as [<-|Hx]; [apply P5; auto|]. intros y H1 H2. apply (Dr x Hx y H1). apply In2 in H2. tauto.
Qed.

Lemma split_ok : forall l, ipset l -> (forall b, In b (ipb_split l) -> blk b /\ forall y, mem y b -> mem y l)
  /\ pdisj (ipb_split l) /\ forall y, inU y (ipb_split l) <-> mem y l.
Proof.
  intros l Hl. unfold ipb_split. split; [|split].
  - intros b Hb. apply in_map_iff in Hb as (i & <- & Hi). pose proof (ipset_fam _ _ Hl Hi) as F. split; [split|].
    + eapply canonical_sub1; eauto.
    + exists (lo i). apply mem_single. unfold fam in F. lia.
    + intros y Hy. apply mem_single in Hy. exists i. auto.
  - destruct Hl as [C _]. apply canonical_from in C as [b0 C]. revert b0 C. induction l as [|i l IH]; intros b0 C; cbn [map pdisj]; auto.
    simpl in C. destruct C as (C1 & C2 & C3). split; [|eapply IH; eauto].
    intros c Hc y H1 H2. apply in_map_iff in Hc as (j & <- & Hj). apply mem_single in H1. apply mem_single in H2.
    assert (hi i + 1 < y); [|lia]. eapply canon_from_mem; [exact C3|]. exists j. auto.
  - intros y. unfold inU, mem. split.
    + intros (b & Hb & i & Hi & Hy). apply in_map_iff in Hb as (j & <- & Hj). destruct Hi as [<-|[]]. eauto.
    + intros (i & Hi & Hy). exists [i]. split; [exact (in_map (fun i => [i]) l i Hi)|]. exists i. split; [left; auto|auto].
Qed.

Lemma add_to_list_ok : forall interval blocks, ipset interval -> (forall b, In b blocks -> blk b) -> pdisj blocks ->
  let R := add_interval_to_list interval blocks in
  (forall c, In c R -> blk c /\ uncut c interval /\ ((exists b, In b blocks /\ forall y, mem y c -> mem y b) \/ (forall b, In b blocks -> disj c b)))
  /\ pdisj R /\ forall y, inU y R <-> inU y blocks \/ mem y interval.
Proof.
  intros interval blocks Hi Hb Hd. unfold add_interval_to_list.
  destruct (ail_loop interval blocks) as [[bs iv] ta] eqn:E.
  destruct (ail_loop_ok _ _ _ _ _ Hi Hb Hd E) as (I1 & I2 & I3 & I4 & I5).
  destruct (split_ok iv I1) as (S1 & S2 & S3). cbv zeta.
  assert (Hin : forall c, In c (bs ++ ipb_split iv ++ ta) <-> In c (bs ++ ta) \/ In c (ipb_split iv)).
  { intros c. rewrite !in_app_iff. tauto. }
  assert (Dsp : forall b c, In b (ipb_split iv) -> In c (bs ++ ta) -> disj b c).
  { intros b c H1 H2 y Y1 Y2. apply S1 in H1. destruct H1 as [_ H1]. apply H1, I2 in Y1. apply (proj2 Y1). apply I4. exists c; auto. }
  split; [|split].
  - intros c Hc. apply Hin in Hc. destruct Hc as [Hc|Hc].
    + destruct (I3 c Hc) as (C1 & C2 & C3). auto.
    + destruct (S1 c Hc) as [C1 C2]. split; auto. split.
      * left. intros y Hy. apply I2; auto.
      * right. intros b Hb' y Y1 Y2. apply C2, I2 in Y1. apply (proj2 Y1). exists b; auto.
  - apply pdisj_app in I5. destruct I5 as (J1 & J2 & J3). apply pdisj_app. split; auto. split.
    + apply pdisj_app. split; auto. split; auto. intros b c H1 H2. apply Dsp; auto. apply in_app_iff; auto.
    + intros b c H1 H2. apply in_app_iff in H2. destruct H2 as [H2|H2]; auto.
      intros y Y1 Y2. eapply (Dsp c b); eauto. apply in_app_iff; auto.
  - intros y. rewrite !inU_app. assert (X : inU y bs \/ inU y ta <-> inU y blocks) by (rewrite <- I4, inU_app; tauto).
    rewrite S3, I2. split; [intros [?|[?|?]]; tauto|].
    intros [H|H]; [tauto|]. 
    assert (D : inU y blocks \/ ~ inU y blocks).
    { clear - Hb. induction blocks as [|b bl IH]; [right; rewrite inU_nil; tauto|]. rewrite inU_cons.
      destruct (iset_contains_ok b y) as (bb & _ & Hbb); [apply Hb; left; auto|]. 
      assert (mem y b \/ ~ mem y b) by (destruct bb; [left; apply Hbb; auto|right; intros H; apply Hbb in H; discriminate]).
      destruct IH; [intros; apply Hb; right; auto|tauto|tauto]. }
    tauto.
Qed.
