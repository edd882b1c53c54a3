(** * Facts about PeerSet and BasePeerSet. *)
From Coq Require Import ZArith List Bool Lia ZifyBool String.
From Verif Require Import IntervalModel IntervalFacts PortProtoModel PortProtoFacts PeerModel PeerFacts.
Import ListNotations.
Local Open Scope Z_scope.

(** The elements of a peer set: named peers and single addresses. *)
Inductive point := PN (kind : nat) (name : string) | PA (y : Z).
Definition pt_in (x : point) (s : peerset) : Prop :=
  match x with
  | PN k n => In (Named k n) s
  | PA y => exists l, In (Block l) s /\ mem y l
  end.
Definition ps_ok (s : peerset) : Prop := forall l, In (Block l) s -> ipset l.

Lemma peer_eqb_eq : forall p q, peer_eqb p q = true <-> p = q.
Proof.
  destruct p, q; simpl; split; intros H; try discriminate; try congruence.
  - apply andb_true_iff in H as [H1 H2]. apply Nat.eqb_eq in H1. apply String.eqb_eq in H2. congruence.
  - injection H as -> ->. rewrite Nat.eqb_refl, String.eqb_refl. auto.
  - apply iset_eqb_eq in H. congruence.
  - injection H as ->. apply iset_eqb_eq. auto.
Qed.
Lemma pmem_In : forall p s, pmem p s = true <-> In p s.
Proof.
  intros. unfold pmem. rewrite existsb_exists. split.
  - intros (q & Hq & E). apply peer_eqb_eq in E. congruence.
  - intros H. exists p. split; auto. apply peer_eqb_eq; auto.
Qed.
Lemma padd_In : forall p q s, In q (padd p s) <-> q = p \/ In q s.
Proof.
  intros. unfold padd. destruct (pmem p s) eqn:E.
  - apply pmem_In in E. split; [auto|]. intros [->|H]; auto.
  - rewrite in_app_iff. simpl. split; [intros [?|[?|[]]]; auto|intros [?|?]; auto].
Qed.
Lemma fold_padd_In : forall t s q, In q (fold_left (fun r p => padd p r) t s) <-> In q s \/ In q t.
Proof.
  induction t as [|a t IH]; intros s q; cbn [fold_left]; [simpl; tauto|]. rewrite IH, padd_In. simpl. intuition congruence.
Qed.
Lemma ps_union_In : forall s t q, In q (ps_union s t) <-> In q s \/ In q t.
Proof. intros. apply fold_padd_In. Qed.
Lemma padd_NoDup : forall p s, NoDup s -> NoDup (padd p s).
Proof.
  intros p s H. unfold padd. destruct (pmem p s) eqn:E; auto. apply NoDup_app_intro; auto.
  - constructor; [intros []|constructor].
  - intros x Hx [<-|[]]. apply pmem_In in Hx. congruence.
Qed.

Lemma pt_in_union : forall s t x, pt_in x (ps_union s t) <-> pt_in x s \/ pt_in x t.
Proof.
  destruct x; cbn [pt_in]; [apply ps_union_In|]. split.
  - intros (l & H & M). apply ps_union_In in H. destruct H; eauto.
  - intros [(l & H & M)|(l & H & M)]; exists l; rewrite ps_union_In; auto.
Qed.
Lemma ps_ok_union : forall s t, ps_ok s -> ps_ok t -> ps_ok (ps_union s t).
Proof. unfold ps_ok; intros s t H1 H2 l H. apply ps_union_In in H. destruct H; auto. Qed.

Lemma without_In : forall s q, In q (without_ip_block s) <-> In q s /\ is_block q = false.
Proof. intros. unfold without_ip_block. rewrite filter_In, negb_true_iff. tauto. Qed.
Lemma block_peer_set_In : forall l x, ipset l -> (pt_in x (block_peer_set l) <-> exists y, x = PA y /\ mem y l).
Proof.
  intros l x Hl. unfold block_peer_set. destruct (iset_bool l) eqn:E; destruct x as [k n|y]; cbn [pt_in In].
  - split; [intros [H|[]]; discriminate|intros (y & H & _); discriminate].
  - split; [intros (m & [H|[]] & M); injection H as <-; eauto|intros (z & H & M); injection H as <-; exists l; auto].
  - split; [intros []|intros (y & H & _); discriminate].
  - split; [intros (m & [] & M)|]. intros (z & _ & M).
    assert (iset_bool l = true); [apply iset_bool_ok; [apply Hl|eauto]|congruence].
Qed.
Lemma block_peer_set_ok : forall l, ipset l -> ps_ok (block_peer_set l).
Proof. unfold block_peer_set, ps_ok. intros l Hl m. destruct (iset_bool l); simpl; [intros [H|[]]; congruence|tauto]. Qed.

Lemma ip_canonical_ok : forall s, ps_ok s ->
  exists r, ip_block_canonical s = Some r /\ ipset r /\ forall y, mem y r <-> pt_in (PA y) s.
Proof.
  intros s Hs. unfold ip_block_canonical.
  assert (G : forall s r0, ps_ok s -> ipset r0 -> exists r,
    fold_left (fun acc p => match p with Block l => bind acc (fun r => ipb_or r l) | _ => acc end) s (Some r0) = Some r
    /\ ipset r /\ forall y, mem y r <-> mem y r0 \/ pt_in (PA y) s).
  { clear s Hs. induction s as [|p s IH]; intros r0 Hs H0; cbn [fold_left].
    - exists r0. split; auto. split; auto. intros y. cbn [pt_in]. split; [auto|]. intros [H|(l & [] & _)]; auto.
    - assert (Hs' : ps_ok s) by (intros l Hl; apply Hs; right; auto). destruct p as [k n|l].
      + destruct (IH r0 Hs' H0) as (r & E & Hr & M). exists r. split; auto. split; auto. intros y. rewrite M. cbn [pt_in].
        split; [intros [?|(m & ? & ?)]; [auto|right; exists m; simpl; auto]|intros [?|(m & [?|?] & ?)]; [auto|discriminate|right; eauto]].
      + destruct (ipb_or_ok l r0 H0) as (r1 & E1 & H1 & M1); [apply Hs; left; auto|]. cbn [bind]. rewrite E1.
        destruct (IH r1 Hs' H1) as (r & E & Hr & M). exists r. split; auto. split; auto. intros y. rewrite M, M1. cbn [pt_in].
        split; [intros [[?|?]|(m & ? & ?)]; [auto|right; exists l; simpl; auto|right; exists m; simpl; auto]|].
        intros [?|(m & [Hm|?] & ?)]; [auto|injection Hm as ->; auto|right; eauto]. }
  destruct (G s [] Hs ipset_nil) as (r & E & Hr & M). exists r. split; auto. split; auto. intros y. rewrite M, mem_nil. tauto.
Qed.

Lemma mem_dec : forall l y, canonical l -> mem y l \/ ~ mem y l.
Proof.
  intros l y C. destruct (iset_contains_ok l y C) as (bb & _ & Hbb).
  destruct bb; [left; apply Hbb; auto|right; intros H; apply Hbb in H; discriminate].
Qed.

Lemma ps_inter_ok : forall s t, ps_ok s -> ps_ok t ->
  exists r, ps_inter s t = Some r /\ ps_ok r /\ forall x, pt_in x r <-> pt_in x s /\ pt_in x t.
Proof.
  intros s t Hs Ht. unfold ps_inter.
  destruct (ip_canonical_ok s Hs) as (a & Ea & Ha & Ma). destruct (ip_canonical_ok t Ht) as (b & Eb & Hb & Mb).
  rewrite Ea, Eb. cbn [bind]. eexists. split; [reflexivity|]. destruct (ipb_and_ok a b Ha Hb) as [C M]. split.
  - apply ps_ok_union; [|apply block_peer_set_ok; auto]. intros l Hl. apply filter_In in Hl as [Hl _].
    apply without_In in Hl as [_ Hl]. discriminate.
  - intros x. rewrite pt_in_union, block_peer_set_In by auto. destruct x as [k n|y]; cbn [pt_in].
    + rewrite filter_In, pmem_In, !without_In. cbn [is_block]. split; [intros [?|(y & ? & _)]; [tauto|discriminate]|tauto].
    + split.
      * intros [(l & Hl & _)|(z & Hz & Hm)]; [apply filter_In in Hl as [Hl _]; apply without_In in Hl as [_ Hl]; discriminate|].
        injection Hz as <-. apply M in Hm. rewrite Ma, Mb in Hm. auto.
      * intros H. right. exists y. split; auto. apply M. rewrite Ma, Mb. auto.
Qed.
Lemma ps_diff_ok : forall s t, ps_ok s -> ps_ok t ->
  exists r, ps_diff s t = Some r /\ ps_ok r /\ forall x, pt_in x r <-> pt_in x s /\ ~ pt_in x t.
Proof.
  intros s t Hs Ht. unfold ps_diff.
  destruct (ip_canonical_ok s Hs) as (a & Ea & Ha & Ma). destruct (ip_canonical_ok t Ht) as (b & Eb & Hb & Mb).
  rewrite Ea, Eb. cbn [bind]. eexists. split; [reflexivity|]. destruct (ipb_sub_ok b a Ha Hb) as [C M]. split.
  - apply ps_ok_union; [|apply block_peer_set_ok; auto]. intros l Hl. apply filter_In in Hl as [Hl _].
    apply without_In in Hl as [_ Hl]. discriminate.
  - intros x. rewrite pt_in_union, block_peer_set_In by auto. destruct x as [k n|y]; cbn [pt_in].
    + rewrite filter_In, negb_true_iff, <- not_true_iff_false, pmem_In, !without_In. cbn [is_block].
      split; [intros [?|(y & ? & _)]; [tauto|discriminate]|tauto].
    + split.
      * intros [(l & Hl & _)|(z & Hz & Hm)]; [apply filter_In in Hl as [Hl _]; apply without_In in Hl as [_ Hl]; discriminate|].
        injection Hz as <-. apply M in Hm. rewrite Ma, Mb in Hm. auto.
      * intros H. right. exists y. split; auto. apply M. rewrite Ma, Mb. auto.
Qed.

Lemma ps_equal_ok : forall s t, ps_ok s -> ps_ok t ->
  exists b, ps_equal s t = Some b /\ (b = true <-> forall x, pt_in x s <-> pt_in x t).
Proof.
  intros s t Hs Ht. unfold ps_equal.
  assert (W : forall s t, forallb (fun p => pmem p (without_ip_block t)) (without_ip_block s) = true <->
              forall k n, In (Named k n) s -> In (Named k n) t).
  { clear. intros s t. rewrite forallb_forall. split.
    - intros H k n Hn. specialize (H (Named k n)). rewrite pmem_In, !without_In in H. apply H; auto.
    - intros H p Hp. apply without_In in Hp as [H1 H2]. destruct p as [k n|]; [|discriminate]. rewrite pmem_In, without_In; auto. }
  destruct (_ && _) eqn:E; cbn [negb].
  - apply andb_true_iff in E as [E1 E2]. rewrite W in E1, E2.
    destruct (ip_canonical_ok s Hs) as (a & Ea & Ha & Ma). destruct (ip_canonical_ok t Ht) as (b & Eb & Hb & Mb).
    rewrite Ea, Eb. cbn [bind]. eexists. split; [reflexivity|]. rewrite iset_eqb_eq. split.
    + intros Eab [k n|y]; [cbn [pt_in]; split; auto|]. rewrite <- Ma, <- Mb, Eab. tauto.
    + intros H. apply canonical_ext; [apply Ha|apply Hb|]. intros y. rewrite Ma, Mb. apply (H (PA y)).
  - exists false. split; auto. split; [discriminate|]. intros H. rewrite <- E. apply andb_true_iff. rewrite !W.
    split; intros k n; apply (H (PN k n)).
Qed.

Lemma ps_contains_ok : forall item s, ps_ok s -> ps_ok [item] ->
  exists b, ps_contains item s = Some b /\
   (b = true <-> match item with
                 | Named k n => In (Named k n) s
                 | Block l => exists m, In (Block m) s /\ forall y, mem y l -> mem y m
                 end).
Proof.
  intros item s Hs Hi. destruct item as [k n|l]; cbn [ps_contains].
  - eexists. split; [reflexivity|]. apply pmem_In.
  - assert (Hl : ipset l) by (apply Hi; left; auto). clear Hi.
    assert (G : forall s r0, ps_ok s -> exists b, fold_left (fun acc p => bind acc (fun r : bool => if r then Some true else
                 match p with Block m => ipb_contained_in l m | _ => Some false end)) s (Some r0) = Some b /\
       (b = true <-> r0 = true \/ exists m, In (Block m) s /\ forall y, mem y l -> mem y m)).
    { clear s Hs. induction s as [|p s IH]; intros r0 Hs; cbn [fold_left bind].
      - exists r0. split; auto. split; [auto|]. intros [?|(m & [] & _)]; auto.
      - assert (Hs' : ps_ok s) by (intros m Hm; apply Hs; right; auto). destruct r0.
        + destruct (IH true Hs') as (b & E & M). exists b. split; auto. rewrite M. split; intros _; left; auto.
        + destruct p as [k n|m].
          * destruct (IH false Hs') as (b & E & M). exists b. split; auto. rewrite M.
            split; [intros [?|(m & ? & ?)]; [discriminate|right; exists m; simpl; auto]|intros [?|(m & [?|?] & ?)]; [discriminate|discriminate|right; eauto]].
          * destruct (ipb_contained_ok l m Hl) as (c & Ec & Hc); [apply Hs; left; auto|]. rewrite Ec.
            destruct (IH c Hs') as (b & E & M). exists b. split; auto. rewrite M, Hc.
            split; [intros [?|(m' & ? & ?)]; [right; exists m; simpl; auto|right; exists m'; simpl; auto]|].
            intros [?|(m' & [Hm|?] & ?)]; [discriminate|injection Hm as ->; auto|right; eauto]. }
    destruct (G s false Hs) as (b & E & M). exists b. split; auto. rewrite M. split; [intros [?|?]; [discriminate|auto]|auto].
Qed.

Lemma ps_canonical_ok : forall s, ps_ok s ->
  exists r, ps_canonical s = Some r /\ ps_ok r /\ (forall x, pt_in x r <-> pt_in x s)
   /\ (forall l m, In (Block l) r -> In (Block m) r -> l = m).
Proof.
  intros s Hs. unfold ps_canonical. destruct (ip_canonical_ok s Hs) as (a & Ea & Ha & Ma). rewrite Ea. cbn [bind].
  eexists. split; [reflexivity|].
  assert (B : forall l, In (Block l) (ps_union (without_ip_block s) (block_peer_set a)) -> l = a).
  { intros l Hl. apply ps_union_In in Hl. destruct Hl as [Hl|Hl]; [apply without_In in Hl as [_ Hl]; discriminate|].
    unfold block_peer_set in Hl. destruct (iset_bool a); simpl in Hl; [destruct Hl as [Hl|[]]; congruence|tauto]. }
  split; [|split].
  - intros l Hl. apply B in Hl. congruence.
  - intros x. rewrite pt_in_union, block_peer_set_In by auto. destruct x as [k n|y]; cbn [pt_in].
    + rewrite without_In. cbn [is_block]. split; [intros [?|(y & ? & _)]; [tauto|discriminate]|tauto].
    + split.
      * intros [(l & Hl & _)|(z & Hz & Hm)]; [apply without_In in Hl as [_ Hl]; discriminate|]. injection Hz as <-. apply Ma; auto.
      * intros H. right. exists y. split; auto. apply Ma; auto.
  - intros l m H1 H2. apply B in H1, H2. congruence.
Qed.

Lemma ps_split_ok : forall s, ps_ok s -> ps_ok (ps_split s) /\ (forall x, pt_in x (ps_split s) <-> pt_in x s)
  /\ (forall l, In (Block l) (ps_split s) -> exists i, l = [i]).
Proof.
  intros s Hs. unfold ps_split.
  assert (G : forall s r0, ps_ok s -> ps_ok r0 -> (forall l, In (Block l) r0 -> exists i, l = [i]) ->
    let r := fold_left (fun r p => match p with Block l => ps_union r (map Block (ipb_split l)) | _ => padd p r end) s r0 in
    ps_ok r /\ (forall x, pt_in x r <-> pt_in x r0 \/ pt_in x s) /\ (forall l, In (Block l) r -> exists i, l = [i])).
  { clear s Hs. induction s as [|p s IH]; intros r0 Hs H0 H1; cbv zeta; cbn [fold_left].
    - split; auto. split; auto. intros [k n|y]; cbn [pt_in In]; [tauto|]. split; [auto|intros [?|(l & [] & _)]; auto].
    - assert (Hs' : ps_ok s) by (intros m Hm; apply Hs; right; auto). destruct p as [k n|l].
      + destruct (IH (padd (Named k n) r0) Hs') as (A & B & C).
        { intros l Hl. apply padd_In in Hl. destruct Hl; [discriminate|auto]. }
        { intros l Hl. apply padd_In in Hl. destruct Hl; [discriminate|auto]. }
        split; auto. split; auto. intros x. rewrite B. destruct x as [k' n'|y]; cbn [pt_in In].
        * rewrite padd_In. intuition congruence.
        * split; [intros [(l & H & M)|(l & H & M)]; [apply padd_In in H; destruct H; [discriminate|left; eauto]|right; eauto]|].
          intros [(l & H & M)|(l & [H|H] & M)]; [left; exists l; rewrite padd_In; auto|discriminate|right; eauto].
      + assert (Hl : ipset l) by (apply Hs; left; auto). destruct (split_ok l Hl) as (S1 & S2 & S3).
        destruct (IH (ps_union r0 (map Block (ipb_split l))) Hs') as (A & B & C).
        { intros m Hm. apply ps_union_In in Hm. destruct Hm as [Hm|Hm]; auto. apply in_map_iff in Hm as (b & E & Hb). injection E as <-.
          apply S1; auto. }
        { intros m Hm. apply ps_union_In in Hm. destruct Hm as [Hm|Hm]; auto. apply in_map_iff in Hm as (b & E & Hb). injection E as <-.
          unfold ipb_split in Hb. apply in_map_iff in Hb as (i & <- & _). eauto. }
        split; auto. split; auto. intros x. rewrite B, pt_in_union. 
        assert (X : pt_in x (map Block (ipb_split l)) <-> exists y, x = PA y /\ mem y l).
        { destruct x as [k n|y]; cbn [pt_in].
          - split; [intros H; apply in_map_iff in H as (b & E & _); discriminate|intros (y & E & _); discriminate].
          - split.
            + intros (m & H & M). apply in_map_iff in H as (b & E & Hb). injection E as <-. exists y. rewrite <- S3. split; auto. exists b; auto.
            + intros (z & E & M). injection E as <-. rewrite <- S3 in M. destruct M as (b & Hb & M). exists b. split; auto. apply in_map; auto. }
        rewrite X. destruct x as [k n|y]; cbn [pt_in In].
        * split; [intros [[?|(y & ? & _)]|?]; [auto|discriminate|auto]|intros [?|[?|?]]; [auto|discriminate|auto]].
        * split.
          -- intros [[?|(z & E & M)]|(m & ? & ?)]; [auto|injection E as <-; right; exists l; auto|right; exists m; auto].
          -- intros [?|(m & [E|H] & M)]; [auto|injection E as <-; left; right; eauto|right; eauto]. }
  destruct (G s [] Hs) as (A & B & C); [intros l []|intros l []|]. split; auto. split; auto.
  intros x. rewrite B. destruct x; cbn [pt_in In]; [tauto|]. split; [intros [(l & [] & _)|?]; auto|auto].
Qed.

Lemma ps_filter_mask_ok : forall s mask, ps_ok s -> ipset mask ->
  exists r, ps_filter_mask s mask = Some r /\ ps_ok r /\
   forall x, pt_in x r <-> pt_in x s /\ match x with PA y => mem y mask | _ => True end.
Proof.
  intros s mask Hs Hm. unfold ps_filter_mask.
  set (g := fun p => match p with Block l => match ipb_contained_in l mask with Some c => negb c | None => false end | _ => false end).
  assert (Em : mapM (fun p => match p with
                       | Block l => bind (ipb_contained_in l mask) (fun c => Some (p, negb c))
                       | _ => Some (p, false)
                       end) s = Some (map (fun p => (p, g p)) s)).
  { apply mapM_map. intros p Hp. destruct p as [k n|l]; auto. unfold g. 
    destruct (ipb_contained_ok l mask) as (c & E & _); [apply Hs; auto|auto|]. rewrite E. reflexivity. }
  rewrite Em. cbn [bind]. eexists. split; [reflexivity|].
  set (kept := map fst (filter (fun q => negb (snd q)) (map (fun p => (p, g p)) s))).
  set (removed := map fst (filter snd (map (fun p => (p, g p)) s))).
  assert (K : forall p, In p kept <-> In p s /\ g p = false).
  { intros p. unfold kept. rewrite in_map_iff. split.
    - intros ((q & b) & E & H). cbn in E. subst q. apply filter_In in H as [H1 H2]. apply in_map_iff in H1 as (q & E & H). injection E as -> <-.
      cbn in H2. apply negb_true_iff in H2. auto.
    - intros [H1 H2]. exists (p, g p). split; auto. apply filter_In. split; [apply in_map_iff; eauto|]. cbn. rewrite H2. auto. }
  assert (R : forall p, In p removed <-> In p s /\ g p = true).
  { intros p. unfold removed. rewrite in_map_iff. split.
    - intros ((q & b) & E & H). cbn in E. subst q. apply filter_In in H as [H1 H2]. apply in_map_iff in H1 as (q & E & H). injection E as -> <-. auto.
    - intros [H1 H2]. exists (p, g p). split; auto. apply filter_In. split; [apply in_map_iff; eauto|auto]. }
  assert (F : forall t r0 q, In q (fold_left (fun r p => match p with
                                | Block l => if iset_overlaps l mask then padd (Block (ipb_and l mask)) r else r
                                | _ => r end) t r0) <-> In q r0 \/ exists l, In (Block l) t /\ iset_overlaps l mask = true /\ q = Block (ipb_and l mask)).
  { clear. induction t as [|p t IH]; intros r0 q; cbn [fold_left].
    - split; [auto|intros [?|(l & [] & _)]; auto].
    - rewrite IH. destruct p as [k n|l].
      + split; [intros [?|(l & ? & ?)]; [auto|right; exists l; simpl; auto]|intros [?|(l & [?|?] & ?)]; [auto|discriminate|right; eauto]].
      + destruct (iset_overlaps l mask) eqn:Ov.
        * rewrite padd_In. split; [intros [[?|?]|(m & ? & ?)]; [right; exists l; simpl; auto|auto|right; exists m; simpl; auto]|].
          intros [?|(m & [E|?] & ? & ?)]; [auto|injection E as <-; auto|right; eauto].
        * split; [intros [?|(m & ? & ?)]; [auto|right; exists m; simpl; auto]|].
          intros [?|(m & [E|?] & ? & ?)]; [auto|injection E as <-; congruence|right; eauto]. }
  assert (Gf : forall l, ipset l -> (g (Block l) = false <-> forall y, mem y l -> mem y mask)).
  { intros l Hl. unfold g. destruct (ipb_contained_ok l mask Hl Hm) as (c & E & Hc). rewrite E, <- Hc. destruct c; simpl; intuition congruence. }
  split.
  - intros l Hl. apply F in Hl. destruct Hl as [Hl|(m & H & _ & E)]; [apply K in Hl; apply Hs; tauto|]. injection E as ->.
    apply ipb_and_ok; auto. apply Hs. apply R in H. tauto.
  - intros [k n|y]; cbn [pt_in].
    + rewrite F, K. split; [intros [?|(m & _ & _ & E)]; [tauto|discriminate]|intros [? _]; left; split; auto].
    + split.
      * intros (l & Hl & M). apply F in Hl. destruct Hl as [Hl|(m & H & _ & E)].
        -- apply K in Hl as [H1 H2]. split; [eauto|]. apply (Gf l); auto.
        -- injection E as ->. apply R in H as [H1 H2]. apply ipb_and_ok in M; auto. destruct M. split; [eauto|auto].
      * intros [(l & Hl & M) Hy]. destruct (g (Block l)) eqn:Eg.
        -- exists (ipb_and l mask). assert (Hl' : ipset l) by auto. split; [|apply ipb_and_ok; auto].
           apply F. right. exists l. split; [apply R; auto|]. split; auto. apply iset_overlaps_ok; [apply Hl'|apply Hm|eauto].
        -- exists l. split; auto. apply F. left. apply K. auto.
Qed.

(** ** BasePeerSet *)
Lemma icons : max_ipv4_index = v4max /\ min_ipv6_index = v4max + 5 /\ max_ipv6_index = v4max + 5 + (v6max - v6min)
  /\ min_pod_index = v4max + 10 + (v6max - v6min) /\ max_pod_index = v4max + 10 + (v6max - v6min) + 9999.
Proof. repeat split; vm_compute; reflexivity. Qed.

Local Opaque min_pod_index max_pod_index min_ipv6_index max_ipv6_index max_ipv4_index v4max v6min v6max.
Lemma ex_or {X} : forall (A : Prop) (P Q R : X -> Prop),
  (A \/ exists x, P x /\ R x) \/ (exists x, Q x /\ R x) <-> A \/ exists x, (P x \/ Q x) /\ R x.
Proof.
  intros A P Q R. split.
  - intros [[?|(x & ? & ?)]|(x & ? & ?)]; [auto|right; exists x; auto|right; exists x; auto].
  - intros [?|(x & [?|?] & ?)]; [auto|left; right; exists x; auto|right; exists x; auto].
Qed.
Definition reg_ok (reg : list peer) : Prop :=
  NoDup reg /\ (forall p, In p reg -> is_block p = false) /\ Z.of_nat (List.length reg) <= max_num_of_pods.
Definition register (reg : list peer) (ps : list peer) : option (list peer) :=
  fold_left (fun acc p => bind acc (fun r => add_peer r p)) ps (Some reg).

Lemma register_none : forall ps, fold_left (fun acc p => bind acc (fun r => add_peer r p)) ps None = None.
Proof. induction ps; auto. Qed.

Lemma add_peer_ok : forall reg p reg', reg_ok reg -> add_peer reg p = Some reg' ->
  reg_ok reg' /\ (forall q, In q reg' <-> In q reg \/ (q = p /\ is_block p = false)) /\ exists t, reg' = (reg ++ t)%list.
Proof.
  intros reg p reg' (N & B & L) E. unfold add_peer in E. destruct (negb (is_block p) && negb (pmem p reg)) eqn:C.
  - apply andb_true_iff in C as [C1 C2]. apply negb_true_iff in C1, C2.
    destruct (Z.ltb_spec (Z.of_nat (List.length reg)) max_num_of_pods); [|discriminate]. injection E as <-.
    assert (Hn : ~ In p reg) by (rewrite <- pmem_In; congruence). split; [|split; [|eauto]].
    + split; [|split].
      * apply NoDup_app_intro; auto; [constructor; [intros []|constructor]|]. intros x Hx [<-|[]]; auto.
      * intros q Hq. apply in_app_iff in Hq. destruct Hq as [Hq|[<-|[]]]; auto.
      * rewrite app_length. cbn [List.length]. lia.
    + intros q. rewrite in_app_iff. simpl. split; [intros [?|[?|[]]]; auto|intros [?|[? ?]]; auto].
  - injection E as <-. split; [repeat split; auto|]. split; [|exists []; rewrite app_nil_r; auto].
    intros q. split; [auto|]. intros [?|[-> Hb]]; auto. rewrite Hb in C. cbn in C. apply negb_false_iff, pmem_In in C. auto.
Qed.

Lemma register_ok : forall ps reg reg', reg_ok reg -> register reg ps = Some reg' ->
  reg_ok reg' /\ (forall q, In q reg' <-> In q reg \/ (In q ps /\ is_block q = false)) /\ exists t, reg' = (reg ++ t)%list.
Proof.
  unfold register. induction ps as [|p ps IH]; intros reg reg' R E; cbn [fold_left bind] in E.
  - injection E as <-. split; auto. split; [simpl; tauto|]. exists []. rewrite app_nil_r; auto.
  - destruct (add_peer reg p) as [r1|] eqn:E1; [|rewrite register_none in E; discriminate].
    destruct (add_peer_ok _ _ _ R E1) as (R1 & I1 & t1 & T1). destruct (IH _ _ R1 E) as (R2 & I2 & t2 & T2).
    split; auto. split; [|exists (t1 ++ t2)%list; rewrite T2, T1, app_assoc; auto].
    intros q. rewrite I2, I1. simpl. split; [intros [[?|[-> ?]]|[? ?]]; auto|intros [?|[[->|?] ?]]; auto].
Qed.

Lemma peer_index_spec : forall reg p k, NoDup reg ->
  (peer_index reg p = Some k <-> 0 <= k /\ nth_error reg (Z.to_nat k) = Some p).
Proof.
  induction reg as [|q reg IH]; intros p k N; cbn [peer_index].
  - split; [discriminate|]. intros [_ H]. destruct (Z.to_nat k); discriminate.
  - inversion N as [|? ? Nq Nr]; subst. destruct (peer_eqb p q) eqn:E.
    + apply peer_eqb_eq in E. subst q. split.
      * intros H. injection H as <-. split; [lia|reflexivity].
      * intros [H1 H2]. destruct (Z.to_nat k) as [|m] eqn:Ek; [f_equal; lia|]. exfalso. apply Nq. eapply nth_error_In. exact H2.
    + split.
      * intros H. destruct (peer_index reg p) as [j|] eqn:Ej; [|discriminate]. cbn in H. injection H as <-.
        apply IH in Ej as [J1 J2]; auto. split; [lia|]. replace (Z.to_nat (Z.succ j)) with (S (Z.to_nat j)) by lia. exact J2.
      * intros [H1 H2]. destruct (Z.to_nat k) as [|m] eqn:Ek.
        -- cbn in H2. injection H2 as ->. assert (peer_eqb p p = true) by (apply peer_eqb_eq; auto). congruence.
        -- cbn in H2. assert (Ej : peer_index reg p = Some (Z.of_nat m)) by (apply IH; [auto|split; [lia|rewrite Nat2Z.id; auto]]).
           rewrite Ej. cbn. f_equal. lia.
Qed.

Lemma peer_index_In : forall reg p, In p reg -> exists k, peer_index reg p = Some k.
Proof.
  induction reg as [|q reg IH]; intros p H; [destruct H|]. cbn [peer_index]. destruct (peer_eqb p q) eqn:E; [eauto|].
  destruct H as [->|H]; [assert (peer_eqb p p = true) by (apply peer_eqb_eq; auto); congruence|].
  destruct (IH p H) as [k ->]. cbn; eauto.
Qed.

(** The index of a point. *)
Definition addr_index (y : Z) : Z := if y <=? v4max then y else min_ipv6_index + (y - v6min).
Definition point_index (reg : list peer) (x : point) : option Z :=
  match x with
  | PN k n => option_map (Z.add min_pod_index) (peer_index reg (Named k n))
  | PA y => Some (addr_index y)
  end.

Lemma range_index_ok : forall i z, fam i ->
  lo (range_index i) <= hi (range_index i) /\
  (lo (range_index i) <= z <= hi (range_index i) <-> exists y, lo i <= y <= hi i /\ addr_index y = z).
Proof.
  intros i z F. unfold range_index, addr_index, fam in *. zc.
  unfold min_ipv4_index. destruct (Z.leb_spec (lo i) v4max); cbn [lo hi]; split; try lia; split.
  - intros. exists z. destruct (Z.leb_spec z v4max); lia.
  - intros (y & H1 & H2). destruct (Z.leb_spec y v4max); lia.
  - intros. exists (z - min_ipv6_index + v6min). destruct (Z.leb_spec (z - min_ipv6_index + v6min) v4max); lia.
  - intros (y & H1 & H2). destruct (Z.leb_spec y v4max); lia.
Qed.

Lemma peer_interval_ok : forall reg s, reg_ok reg -> ps_ok s -> (forall k n, In (Named k n) s -> In (Named k n) reg) ->
  exists r, peer_interval_of reg s = Some r /\ canonical r /\
    forall z, mem z r <-> exists x, pt_in x s /\ point_index reg x = Some z.
Proof.
  intros reg s R Hs Hr. unfold peer_interval_of.
  assert (Inner : forall l r0, (forall i, In i l -> fam i) -> canonical r0 -> exists r,
    fold_left (fun acc' i => bind acc' (fun r => add_interval r (range_index i))) l (Some r0) = Some r /\ canonical r /\
    forall z, mem z r <-> mem z r0 \/ exists y, mem y l /\ addr_index y = z).
  { clear. induction l as [|i l IH]; intros r0 F C; cbn [fold_left bind].
    - exists r0. split; auto. split; auto. intros z. split; [auto|]. intros [?|(y & H & _)]; auto. apply mem_nil in H; tauto.
    - assert (Fi : fam i) by (apply F; left; auto). destruct (add_interval_ok r0 (range_index i) C) as (r1 & E1 & C1 & M1 & _);
        [apply (range_index_ok i 0 Fi)|]. rewrite E1. destruct (IH r1) as (r & E & Cr & M); auto; [intros; apply F; right; auto|].
      exists r. split; auto. split; auto. intros z. rewrite M, M1, (proj2 (range_index_ok i z Fi)). setoid_rewrite mem_cons.
      apply ex_or. }
  assert (G : forall s r0, ps_ok s -> (forall k n, In (Named k n) s -> In (Named k n) reg) -> canonical r0 -> exists r,
    fold_left (fun acc p => bind acc (fun res =>
    match p with
    | Block l => fold_left (fun acc' i => bind acc' (fun r => add_interval r (range_index i))) l (Some res)
    | _ => bind (peer_index reg p) (fun k => add_interval res (Ivl (min_pod_index + k) (min_pod_index + k)))
    end)) s (Some r0) = Some r /\ canonical r /\
    forall z, mem z r <-> mem z r0 \/ exists x, pt_in x s /\ point_index reg x = Some z).
  { clear Hr Hs s. induction s as [|p s IH]; intros r0 Hs Hr C; cbn [fold_left bind].
    - exists r0. split; auto. split; auto. intros z. split; [auto|]. intros [?|(x & H & _)]; auto.
      destruct x; cbn [pt_in In] in H; [tauto|destruct H as (l & [] & _)].
    - assert (Hs' : ps_ok s) by (intros m Hm; apply Hs; right; auto).
      assert (Hr' : forall k n, In (Named k n) s -> In (Named k n) reg) by (intros; apply Hr; right; auto).
      assert (Step : exists r1, match p with
        | Block l => fold_left (fun acc' i => bind acc' (fun r => add_interval r (range_index i))) l (Some r0)
        | _ => bind (peer_index reg p) (fun k => add_interval r0 (Ivl (min_pod_index + k) (min_pod_index + k))) end = Some r1
        /\ canonical r1 /\ forall z, mem z r1 <-> mem z r0 \/ exists x, pt_in x [p] /\ point_index reg x = Some z).
      { destruct p as [k n|l].
        - destruct (peer_index_In reg (Named k n)) as [j Ej]; [apply Hr; left; auto|]. rewrite Ej. cbn [bind].
          destruct (add_interval_ok r0 (Ivl (min_pod_index + j) (min_pod_index + j)) C) as (r1 & E1 & C1 & M1 & _); [cbn; lia|].
          exists r1. split; auto. split; auto. intros z. rewrite M1. cbn [lo hi]. split.
          + intros [?|H]; auto. right. exists (PN k n). split; [left; auto|]. cbn [point_index]. rewrite Ej. cbn. f_equal. lia.
          + intros [?|(x & Hx & Ex)]; auto. right. destruct x as [k' n'|y]; [|destruct Hx as (l & [H|[]] & _); discriminate].
            destruct Hx as [H|[]]. injection H as <- <-. cbn [point_index] in Ex. rewrite Ej in Ex. cbn in Ex. injection Ex as <-. lia.
        - destruct (Inner l r0) as (r1 & E1 & C1 & M1); auto.
          { intros i Hi. eapply ipset_fam; [|eauto]. apply Hs. left; auto. }
          exists r1. split; auto. split; auto. intros z. rewrite M1. split.
          + intros [?|(y & H & E)]; auto. right. exists (PA y). split; [exists l; simpl; auto|]. cbn. congruence.
          + intros [?|(x & Hx & Ex)]; auto. right. destruct x as [k n|y]; [destruct Hx as [H|[]]; discriminate|].
            destruct Hx as (m & [H|[]] & M). injection H as <-. cbn in Ex. injection Ex as <-. eauto. }
      destruct Step as (r1 & E1 & C1 & M1). rewrite E1. destruct (IH r1 Hs' Hr' C1) as (r & E & Cr & M). exists r. split; auto. split; auto.
      intros z. rewrite M, M1.
      assert (Pc : forall x, pt_in x (p :: s) <-> pt_in x [p] \/ pt_in x s).
      { intros [k n|y]; cbn [pt_in In]; [tauto|]. split; [intros (l & [?|?] & ?); [left|right]; eauto|intros [(l & [?|[]] & ?)|(l & ? & ?)]; eauto]. }
      setoid_rewrite Pc. apply ex_or. }
  destruct (G s [] Hs Hr I) as (r & E & C & M). exists r. split; auto. split; auto. intros z. rewrite M, mem_nil. tauto.
Qed.

(** Index intervals inside one zone; a pod interval starts at a registered pod. *)
Definition zone_ok (reg : list peer) (i : ivl) : Prop :=
  (0 <= lo i /\ hi i <= max_ipv4_index) \/ (min_ipv6_index <= lo i /\ hi i <= max_ipv6_index)
  \/ (min_pod_index <= lo i < min_pod_index + Z.of_nat (List.length reg) /\ hi i <= max_pod_index).

Lemma mk_addr_ok : forall six n, 0 <= n < 2 ^ width six -> mk_addr six n = Some (pos (Addr six n)).
Proof. intros six n H. unfold mk_addr. destruct (Z.leb_spec 0 n), (Z.ltb_spec n (2 ^ width six)); try lia. reflexivity. Qed.

Lemma py_nth_pos {A} : forall (l : list A) k, 0 <= k -> py_nth l k = nth_error l (Z.to_nat k).
Proof.
  intros l k H. unfold py_nth. destruct (Z.ltb_spec k 0); [lia|]. destruct (Z.leb_spec (Z.of_nat (Datatypes.length l)) k).
  - rewrite orb_true_r. symmetry. apply nth_error_None. lia.
  - rewrite orb_false_r. destruct (Z.ltb_spec k 0); [lia|]. reflexivity.
Qed.

Definition st_pt (x : point) (st : peerset * iset * iset) : Prop :=
  match st with (ps, b4, b6) => match x with PN k n => In (Named k n) ps | PA y => mem y b4 \/ mem y b6 end end.
Definition st_ok (st : peerset * iset * iset) : Prop :=
  match st with (ps, b4, b6) => (forall p, In p ps -> is_block p = false) /\ ipset b4 /\ ipset b6 end.

Lemma mapM_In {A B} (f : A -> option B) : forall l r, mapM f l = Some r -> forall y, In y r <-> exists x, In x l /\ f x = Some y.
Proof.
  induction l as [|a l IH]; intros r E y; cbn [mapM] in E.
  - injection E as <-. split; [intros []|intros (x & [] & _)].
  - destruct (f a) as [b|] eqn:Ea; [|discriminate]. destruct (mapM f l) as [bs|] eqn:El; [|discriminate].
    injection E as <-. simpl. rewrite (IH bs eq_refl y). split.
    + intros [<-|(x & ? & ?)]; [exists a; auto|exists x; auto].
    + intros (x & [<-|H] & E); [left; congruence|right; eauto].
Qed.

Lemma indices_step_ok : forall reg st i, reg_ok reg -> st_ok st -> lo i <= hi i -> zone_ok reg i ->
  exists st', indices_step reg (Some st) i = Some st' /\ st_ok st' /\
    forall x, (match x with PA y => vpos y | _ => True end) ->
      (st_pt x st' <-> st_pt x st \/ exists z, lo i <= z <= hi i /\ point_index reg x = Some z).
Proof.
  intros reg [[ps b4] b6] i R (S1 & S2 & S3) Hi Z. unfold indices_step. cbn [bind].
  destruct icons as (K1 & K2 & K3 & K4 & K5). zc. unfold zone_ok in Z.
  destruct R as (N & B & L). unfold max_num_of_pods in L.
  assert (PB : forall k n z, point_index reg (PN k n) = Some z -> min_pod_index <= z < min_pod_index + Z.of_nat (List.length reg)).
  { intros k n z H. cbn [point_index] in H. destruct (peer_index reg (Named k n)) as [j|] eqn:Ej; [|discriminate]. cbn in H. injection H as <-.
    apply peer_index_spec in Ej as [J1 J2]; auto. assert (Hn : nth_error reg (Z.to_nat j) <> None) by congruence.
    apply nth_error_Some in Hn. lia. }
  assert (AB : forall y z, vpos y -> point_index reg (PA y) = Some z -> (y <= v4max /\ z = y) \/ (v6min <= y /\ z = min_ipv6_index + (y - v6min))).
  { intros y z V H. cbn in H. unfold addr_index, vpos in *. injection H as <-. destruct (Z.leb_spec y v4max); lia. }
  destruct (Z.leb_spec (hi i) max_ipv4_index) as [H4|H4].
  - unfold min_ipv4_index. rewrite !Z.sub_0_r. rewrite !mk_addr_ok by (cbn [width]; rewrite pow32; lia). cbn [bind].
    unfold pos. cbn [is6 num]. destruct (ipb_add_interval_ok b4 (Ivl (lo i) (hi i)) S2) as (r & E & Hr & M); [unfold fam; cbn; lia|].
    rewrite E. cbn [bind]. eexists. split; [reflexivity|]. split; [cbn; auto|]. intros [k n|y] V; cbn [st_pt].
    + split; [auto|]. intros [?|(z & H1 & H2)]; auto. apply PB in H2. lia.
    + rewrite M. cbn [lo hi]. split.
      * intros [[?|H]|?]; auto. right. exists y. split; [lia|]. cbn. unfold addr_index. destruct (Z.leb_spec y v4max); [auto|lia].
      * intros [[?|?]|(z & H1 & H2)]; auto. apply AB in H2; auto. left. right. lia.
  - destruct (Z.leb_spec (hi i) max_ipv6_index) as [H6|H6].
    + rewrite !mk_addr_ok by (cbn [width]; rewrite pow128; lia). cbn [bind]. unfold pos. cbn [is6 num].
      destruct (ipb_add_interval_ok b6 (Ivl (v6min + (lo i - min_ipv6_index)) (v6min + (hi i - min_ipv6_index))) S3) as (r & E & Hr & M); [unfold fam; cbn; lia|].
      rewrite E. cbn [bind]. eexists. split; [reflexivity|]. split; [cbn; auto|]. intros [k n|y] V; cbn [st_pt].
      * split; [auto|]. intros [?|(z & H1 & H2)]; auto. apply PB in H2. lia.
      * rewrite M. cbn [lo hi]. split.
        -- intros [?|[?|H]]; auto. right. exists (min_ipv6_index + (y - v6min)). split; [lia|]. cbn. unfold addr_index. destruct (Z.leb_spec y v4max); [lia|auto].
        -- intros [[?|?]|(z & H1 & H2)]; auto. apply AB in H2; auto. right. right. lia.
    + destruct (Z.leb_spec (hi i) max_pod_index) as [Hp|Hp]; [|lia]. cbn [negb]. cbv zeta.
      set (a := Z.min (lo i - min_pod_index) _). set (b := Z.min (hi i - min_pod_index) _).
      assert (Rg : forall z, In z (zrange a b) -> 0 <= z < Z.of_nat (List.length reg)).
      { intros z Hz. apply zrange_In in Hz. unfold a, b in Hz. lia. }
      assert (Sm : exists l, mapM (py_nth reg) (zrange a b) = Some l).
      { clear - Rg. induction (zrange a b) as [|z zs IH]; cbn [mapM]; [eauto|].
        assert (Hz : 0 <= z < Z.of_nat (List.length reg)) by (apply Rg; left; auto).
        rewrite py_nth_pos by lia. destruct (nth_error reg (Z.to_nat z)) eqn:E; [|apply nth_error_None in E; lia].
        destruct IH as [l El]; [intros; apply Rg; right; auto|]. rewrite El. cbn [bind]. eauto. }
      destruct Sm as [l El]. rewrite El. cbn [bind]. eexists. split; [reflexivity|].
      assert (Lin : forall p, In p l <-> exists z, In z (zrange a b) /\ nth_error reg (Z.to_nat z) = Some p).
      { intros p. rewrite (mapM_In _ _ _ El). split; intros (z & Hz & E); exists z; (split; [auto|]); rewrite <- ?E; [symmetry|]; apply py_nth_pos; apply Rg in Hz; lia. }
      split; [split; [|cbn; auto]|].
      * intros p Hp'. apply fold_padd_In in Hp'. destruct Hp' as [?|H]; auto. apply B. apply Lin in H as (z & _ & E). eapply nth_error_In; eauto.
      * intros [k n|y] V; cbn [st_pt].
        -- rewrite fold_padd_In, Lin. cbn [point_index]. split.
           ++ intros [?|(z & Hz & E)]; auto. right. pose proof (Rg _ Hz) as Rz. apply zrange_In in Hz.
              assert (Ej : peer_index reg (Named k n) = Some z) by (apply peer_index_spec; auto; split; [lia|auto]).
              rewrite Ej. cbn. exists (min_pod_index + z). split; [unfold a, b in Hz; lia|auto].
           ++ intros [?|(z & Hz & E)]; auto. right. pose proof (PB k n z E) as Pz. destruct (peer_index reg (Named k n)) as [j|] eqn:Ej; [|discriminate].
              cbn in E. injection E as <-. apply peer_index_spec in Ej as [J1 J2]; auto. exists j. split; auto. apply zrange_In. unfold a, b. lia.
        -- split; [auto|]. intros [?|(z & H1 & H2)]; auto. apply AB in H2; auto. unfold vpos in V. lia.
Qed.

Lemma by_indices_ok : forall reg l, reg_ok reg -> canonical l -> (forall i, In i l -> zone_ok reg i) ->
  exists s, peer_set_by_indices reg l = Some s /\ ps_ok s /\ (forall m, In (Block m) s -> m <> []) /\
   forall x, (match x with PA y => vpos y | _ => True end) -> (pt_in x s <-> exists z, mem z l /\ point_index reg x = Some z).
Proof.
  intros reg l R C Z. unfold peer_set_by_indices.
  assert (G : forall l st, st_ok st -> (forall i, In i l -> lo i <= hi i /\ zone_ok reg i) ->
    exists st', fold_left (indices_step reg) l (Some st) = Some st' /\ st_ok st' /\
    forall x, (match x with PA y => vpos y | _ => True end) ->
      (st_pt x st' <-> st_pt x st \/ exists z, mem z l /\ point_index reg x = Some z)).
  { clear l C Z. induction l as [|i l IH]; intros st S H; cbn [fold_left].
    - exists st. split; auto. split; auto. intros x _. split; [auto|]. intros [?|(z & Hz & _)]; auto. apply mem_nil in Hz; tauto.
    - destruct (H i (or_introl eq_refl)) as [H1 H2]. destruct (indices_step_ok reg st i R S H1 H2) as (st1 & E1 & S1 & M1). rewrite E1.
      destruct (IH st1 S1) as (st' & E & S' & M); [intros; apply H; right; auto|]. exists st'. split; auto. split; auto.
      intros x V. rewrite M, M1 by auto. setoid_rewrite mem_cons. apply ex_or. }
  destruct (G l ([], [], [])) as ([[ps b4] b6] & E & (S1 & S2 & S3) & M).
  { repeat split; try apply ipset_nil. intros p []. }
  { intros i Hi. split; auto. eapply canonical_in; eauto. }
  match goal with |- context [fold_left (indices_step reg) l ?x] =>
    replace (fold_left (indices_step reg) l x) with (Some (ps, b4, b6)) by (symmetry; exact E) end.
  cbn [bind]. cbv zeta. eexists. split; [reflexivity|].
  set (s := if iset_bool b6 then padd (Block b6) (if iset_bool b4 then padd (Block b4) ps else ps) else if iset_bool b4 then padd (Block b4) ps else ps).
  assert (Hin : forall q, In q s <-> In q ps \/ (iset_bool b4 = true /\ q = Block b4) \/ (iset_bool b6 = true /\ q = Block b6)).
  { intros q. unfold s. destruct (iset_bool b4), (iset_bool b6); rewrite ?padd_In; intuition congruence. }
  assert (Bl : forall m, In (Block m) s -> iset_bool m = true /\ (m = b4 \/ m = b6)).
  { intros m H. apply Hin in H. destruct H as [H|[[H1 H2]|[H1 H2]]]; [apply S1 in H; discriminate|injection H2 as ->; auto|injection H2 as ->; auto]. }
  split; [|split].
  - intros m H. apply Bl in H. destruct H as [_ [->| ->]]; auto.
  - intros m H. apply Bl in H. destruct H as [H _]. intros ->. discriminate.
  - intros x V. assert (X : pt_in x s <-> st_pt x (ps, b4, b6)).
    { destruct x as [k n|y]; cbn [pt_in st_pt].
      - rewrite Hin. intuition discriminate.
      - split.
        + intros (m & H & My). apply Bl in H. destruct H as [_ [->| ->]]; auto.
        + intros [H|H].
          * exists b4. split; auto. apply Hin. right. left. split; auto. apply iset_bool_ok; [apply S2|eauto].
          * exists b6. split; auto. apply Hin. right. right. split; auto. apply iset_bool_ok; [apply S3|eauto]. }
    rewrite X, M by auto. cbn [st_pt]. destruct x; cbn [In]; rewrite ?mem_nil; tauto.
Qed.
