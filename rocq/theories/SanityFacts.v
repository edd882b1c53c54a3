(** * Facts about the sanity query (SanityModel.v) that need no law of the connection sets. *)
From Coq Require Import ZArith List Bool Arith Lia String Sorting.
From Verif Require Import IntervalModel PortProtoModel PeerModel PeerSetFacts PolicyModel OrderFacts QueryModel QueryOne GatewayFacts SanityModel.
Import ListNotations.
Local Open Scope nat_scope.
Local Open Scope list_scope.

Section Sanity.
Context {C : Type} (A : cops C) (Q : qops C) (h6 : @policy C -> bool) (rid : @rule C -> @rule C -> bool).
Local Notation policy := (@policy C).
Local Notation rule := (@rule C).
Local Notation config := (@config C).

(** ** Conflicts *)
Lemma conflicting_order : forall p q : policy, is_conflicting p q = true -> p_ord p = p_ord q.
Proof using.
  clear A Q h6 rid.
  intros p q H. unfold is_conflicting in H. destruct (ord_eqb (p_ord p) (p_ord q)) eqn:E; [|discriminate H].
  destruct (p_ord p) as [a|], (p_ord q) as [b|]; cbn [ord_eqb] in E; try discriminate; [|reflexivity]. apply Z.eqb_eq in E. congruence.
Qed.
Definition all_calico (l : list policy) : Prop := forall p, In p l -> class_of (p_kind p) = CCalico.
Lemma calico_order : forall p : policy, class_of (p_kind p) = CCalico -> get_order p = p_ord p.
Proof using. clear A Q h6 rid. intros p E. unfold get_order. rewrite E. reflexivity. Qed.
Lemma scan_sound : forall (ps curr pre : list policy) p q, incl curr pre -> conflict_scan curr ps = Some (p, q) ->
  earlier q p (pre ++ ps) /\ is_conflicting p q = true.
Proof using.
  clear A Q h6 rid.
  induction ps as [|x ps IH]; intros curr pre p q I H; [discriminate|]. cbn [conflict_scan] in H.
  assert (N : forall cur', incl cur' (pre ++ [x]) -> conflict_scan cur' ps = Some (p, q) -> earlier q p (pre ++ x :: ps) /\ is_conflicting p q = true).
  { intros cur' I' H'. replace (pre ++ x :: ps) with ((pre ++ [x]) ++ ps) by (rewrite <- app_assoc; reflexivity). apply (IH cur'); auto. }
  assert (I1 : incl [x] (pre ++ [x])) by (intros y [<-|[]]; apply in_or_app; right; left; reflexivity).
  destruct curr as [|c curr]; [apply (N [x]); auto|]. destruct (policy_lt c x); [apply (N [x]); auto|].
  destruct (find (is_conflicting x) (c :: curr)) as [y|] eqn:F.
  - injection H as <- <-. apply find_some in F as [F1 F2]. split; [|exact F2]. apply I in F1. apply in_split in F1 as (l1 & l2 & ->).
    exists l1, l2, ps. rewrite <- app_assoc. reflexivity.
  - apply (N ((c :: curr) ++ [x])); [|exact H]. intros y Hy. apply in_app_or in Hy as [Hy|Hy]; apply in_or_app; [left; auto|right; exact Hy].
Qed.
Lemma scan_complete : forall (ps curr : list policy), conflict_scan curr ps = None -> by_order (curr ++ ps) -> all_calico (curr ++ ps) ->
  (forall c d, In c curr -> In d curr -> p_ord c = p_ord d) ->
  (forall c x, In c curr -> In x ps -> is_conflicting x c = false) /\ ForallOrdPairs (fun q p => is_conflicting p q = false) ps.
Proof using.
  clear A Q h6 rid.
  induction ps as [|x ps IH]; intros curr H B K S; [split; [intros c y _ []|constructor]|]. cbn [conflict_scan] in H.
  assert (SUB : by_order ([x] ++ ps) /\ all_calico ([x] ++ ps)).
  { split; [|intros p Hp; apply K; apply in_or_app; right; exact Hp]. clear - B. induction curr as [|c curr IHc]; [exact B|].
    apply IHc. cbn [app] in B. inversion B; subst; auto. }
  destruct SUB as [B1 K1].
  assert (NEW : conflict_scan [x] ps = None -> (forall y, In y ps -> is_conflicting y x = false) /\ ForallOrdPairs (fun q p => is_conflicting p q = false) (x :: ps)).
  { intros H'. destruct (IH [x] H' B1 K1) as [I1 I2]; [intros c d [<-|[]] [<-|[]]; reflexivity|].
    assert (I1' : forall y, In y ps -> is_conflicting y x = false) by (intros y Hy; apply (I1 x y (or_introl eq_refl) Hy)).
    split; [exact I1'|]. constructor; [apply Forall_forall; exact I1'|exact I2]. }
  destruct curr as [|c curr]; [destruct (NEW H) as [_ N]; split; [intros c y []|exact N]|].
  assert (BF : forall y, In y (x :: ps) -> before (p_ord c) (p_ord y)).
  { intros y Hy. cbn [app] in B. inversion B as [|? ? _ F]; subst. rewrite Forall_forall in F. specialize (F y).
    rewrite (calico_order c), (calico_order y) in F; [|apply K; apply in_or_app; right; exact Hy|apply K; left; reflexivity].
    apply F. apply in_or_app. right. exact Hy. }
  assert (BX : forall y, In y ps -> before (p_ord x) (p_ord y)).
  { intros y Hy. cbn [app] in B1. inversion B1 as [|? ? _ F]; subst. rewrite Forall_forall in F. specialize (F y Hy).
    rewrite (calico_order x), (calico_order y) in F; [exact F|apply K1; right; exact Hy|apply K1; left; reflexivity]. }
  assert (Kc : class_of (p_kind c) = CCalico) by (apply K; left; reflexivity).
  assert (Kx : class_of (p_kind x) = CCalico) by (apply K1; left; reflexivity).
  assert (LT : policy_lt c x = match p_ord c, p_ord x with None, _ => false | Some _, None => true | Some a, Some b => (a <? b)%Z end).
  { unfold policy_lt. rewrite Kc, (calico_order c Kc), (calico_order x Kx). reflexivity. }
  destruct (policy_lt c x) eqn:E.
  - destruct (NEW H) as [N1 N2]. split; [|exact N2]. intros d y Hd Hy. destruct (is_conflicting y d) eqn:F; [|reflexivity]. exfalso.
    apply conflicting_order in F. rewrite (S d c Hd (or_introl eq_refl)) in F. symmetry in LT.
    assert (BY : before (p_ord x) (p_ord y)) by (destruct Hy as [<-|Hy]; [unfold before; destruct (p_ord x); [lia|exact I]|apply BX; exact Hy]).
    rewrite F in BY. clear - LT BY. destruct (p_ord c) as [a|], (p_ord x) as [b|]; cbn [before] in BY; try discriminate; try contradiction.
    apply Z.ltb_lt in LT. lia.
  - destruct (find (is_conflicting x) (c :: curr)) as [y|] eqn:F; [discriminate|].
    assert (EO : p_ord c = p_ord x).
    { specialize (BF x (or_introl eq_refl)). symmetry in LT. clear - LT BF. destruct (p_ord c) as [a|], (p_ord x) as [b|]; cbn [before] in BF; try discriminate; try contradiction; auto.
      apply Z.ltb_ge in LT. f_equal. lia. }
    destruct (IH ((c :: curr) ++ [x])) as [I1 I2].
    + exact H.
    + rewrite <- app_assoc. exact B.
    + rewrite <- app_assoc. exact K.
    + assert (T : forall d, In d ((c :: curr) ++ [x]) -> p_ord d = p_ord c).
      { intros d Hd. apply in_app_or in Hd as [Hd|[<-|[]]]; [apply S; [exact Hd|left; reflexivity]|auto]. }
      intros d e Hd He. rewrite (T d Hd), (T e He). reflexivity.
    + split.
      * intros d y Hd [<-|Hy]; [apply (find_none _ _ F d Hd)|]. apply I1; [apply in_or_app; left; exact Hd|exact Hy].
      * constructor; [|exact I2]. apply Forall_forall. intros y Hy. apply I1; [apply in_or_app; right; left; reflexivity|exact Hy].
Qed.
Lemma pairs_earlier : forall (R : policy -> policy -> Prop) l q p, ForallOrdPairs R l -> earlier q p l -> R q p.
Proof using.
  clear A Q h6 rid.
  intros R l q p F (l1 & l2 & l3 & ->). induction l1 as [|x l1 IH]; cbn [app] in F; inversion F as [|? ? F1 F2]; subst.
  - rewrite Forall_forall in F1. apply F1. apply in_or_app. right. left. reflexivity.
  - apply IH. exact F2.
Qed.
Lemma earlier_in_filter : forall (f : policy -> bool) l q p, earlier q p l -> f q = true -> f p = true -> earlier q p (filter f l).
Proof using.
  clear A Q h6 rid.
  intros f l q p (l1 & l2 & l3 & ->) Hq Hp. exists (filter f l1), (filter f l2), (filter f l3).
  rewrite filter_app. cbn [filter]. rewrite Hq, filter_app. cbn [filter]. rewrite Hp. reflexivity.
Qed.
Lemma filter_split : forall (f : policy -> bool) l m1 x m2, filter f l = m1 ++ x :: m2 ->
  exists l1 l2, l = l1 ++ x :: l2 /\ filter f l1 = m1 /\ filter f l2 = m2 /\ f x = true.
Proof using.
  clear A Q h6 rid.
  intros f. induction l as [|y l IH]; intros m1 x m2 E; [destruct m1; discriminate|]. cbn [filter] in E. destruct (f y) eqn:F.
  - destruct m1 as [|z m1]; cbn [app] in E.
    + injection E as -> <-. exists [], l. auto.
    + injection E as -> E. destruct (IH m1 x m2 E) as (l1 & l2 & -> & E1 & E2 & E3). exists (z :: l1), l2. cbn [filter app]. rewrite F, E1. auto.
  - destruct (IH m1 x m2 E) as (l1 & l2 & -> & E1 & E2 & E3). exists (y :: l1), l2. cbn [filter app]. rewrite F, E1. auto.
Qed.
Lemma earlier_of_filter : forall (f : policy -> bool) l q p, earlier q p (filter f l) -> earlier q p l /\ f q = true /\ f p = true.
Proof using.
  clear A Q h6 rid.
  intros f l q p (m1 & m2 & m3 & E). destruct (filter_split f l _ _ _ E) as (l1 & l2 & -> & _ & E2 & F1).
  destruct (filter_split f l2 _ _ _ E2) as (l3 & l4 & -> & _ & _ & F2). split; [|auto]. exists l1, l3, l4. reflexivity.
Qed.
Lemma by_order_filter : forall (f : policy -> bool) l, by_order l -> by_order (filter f l).
Proof using.
  clear A Q h6 rid.
  intros f l B. induction l as [|x l IH]; [constructor|]. cbn [filter]. inversion B as [|? ? B1 B2]; subst. destruct (f x); [|apply IH; exact B1].
  constructor; [apply IH; exact B1|]. apply Forall_forall. intros y Hy. rewrite Forall_forall in B2. apply B2. apply filter_In in Hy. apply Hy.
Qed.
Lemma calico_policy_class : forall p : policy, is_calico_policy p = true <-> class_of (p_kind p) = CCalico.
Proof using. clear A Q h6 rid. intros p. unfold is_calico_policy. destruct (class_of (p_kind p)); cbn; split; congruence. Qed.
(** The search finds a conflict exactly if there is one. *)
Lemma conflict_exact : forall g : config, inv (g_pols g) ->
  (forall p q, conflict g = Some (p, q) -> exists pols, In (LK8sCalico, pols) (lays (g_pols g)) /\ earlier q p pols /\
     class_of (p_kind p) = CCalico /\ class_of (p_kind q) = CCalico /\ is_conflicting p q = true) /\
  (conflict g = None -> forall pols p q, In (LK8sCalico, pols) (lays (g_pols g)) -> earlier q p pols ->
     class_of (p_kind p) = CCalico -> class_of (p_kind q) = CCalico -> is_conflicting p q = false).
Proof using.
  clear A Q h6 rid.
  intros g I. unfold conflict. split.
  - intros p q H. destruct (lget (lays (g_pols g)) LK8sCalico) as [pols|] eqn:E; [|discriminate]. exists pols.
    split; [apply (lget_In _ _ _ (inv_layers _ I)); exact E|]. destruct (List.length (filter is_calico_policy pols) <=? 1); [discriminate|].
    apply (scan_sound _ [] []) in H as [H1 H2]; [|intros x []]. cbn [app] in H1. apply earlier_of_filter in H1 as (H1 & K1 & K2).
    apply calico_policy_class in K1, K2. auto.
  - intros H pols p q Hl He Kp Kq. apply (lget_In _ _ _ (inv_layers _ I)) in Hl as E. rewrite E in H.
    apply calico_policy_class in Kp, Kq. pose proof (earlier_in_filter is_calico_policy pols q p He Kq Kp) as EF.
    destruct (List.length (filter is_calico_policy pols) <=? 1) eqn:Ln.
    + exfalso. apply Nat.leb_le in Ln. destruct EF as (l1 & l2 & l3 & EF). rewrite EF in Ln. rewrite app_length in Ln. cbn [List.length] in Ln. rewrite app_length in Ln. cbn [List.length] in Ln. lia.
    + destruct (scan_complete (filter is_calico_policy pols) []) as [_ F]; [exact H| | | |].
      * apply by_order_filter. pose proof (inv_order _ I) as B. unfold layer_list in B. rewrite E in B. exact B.
      * intros x Hx. apply filter_In in Hx as [_ Hx]. apply calico_policy_class. exact Hx.
      * intros c d [].
      * apply (pairs_earlier _ _ q p F EF).
Qed.
Lemma has_action_spec : forall (rs : list rule) a, has_action rs a = true <-> exists r, In r rs /\ pbool (r_src r) = true /\ pbool (r_dst r) = true /\ r_action r = a.
Proof using.
  clear A Q h6 rid.
  intros rs a. unfold has_action. rewrite existsb_exists. assert (E : forall b c, action_eqb b c = true <-> b = c) by (intros [] []; cbn; split; congruence).
  split; intros (r & Hr & H); exists r; (split; [exact Hr|]); rewrite !andb_true_iff, E in *; tauto.
Qed.
Lemma conflicting_spec : forall p q : policy, is_conflicting p q = true <->
  p_ord p = p_ord q /\ pbool (pinter (p_selected p) (p_selected q)) = true /\
  exists (ing : bool) a b r s, (if ing then p_affects_in p else p_affects_eg p) = true /\ (if ing then p_affects_in q else p_affects_eg q) = true /\
    ((a = Allow /\ b = Deny) \/ (a = Deny /\ b = Allow)) /\
    In r (rules_in_dir p ing) /\ r_action r = a /\ pbool (r_src r) = true /\ pbool (r_dst r) = true /\
    In s (rules_in_dir q ing) /\ r_action s = b /\ pbool (r_src s) = true /\ pbool (r_dst s) = true.
Proof using.
  clear A Q h6 rid.
  intros p q.
  assert (O : ord_eqb (p_ord p) (p_ord q) = true <-> p_ord p = p_ord q).
  { destruct (p_ord p), (p_ord q); cbn [ord_eqb]; try (split; congruence). rewrite Z.eqb_eq. split; congruence. }
  assert (CA : forall ing, conflicting_actions (rules_in_dir p ing) (rules_in_dir q ing) = true <->
    exists a b r s, ((a = Allow /\ b = Deny) \/ (a = Deny /\ b = Allow)) /\
      In r (rules_in_dir p ing) /\ r_action r = a /\ pbool (r_src r) = true /\ pbool (r_dst r) = true /\
      In s (rules_in_dir q ing) /\ r_action s = b /\ pbool (r_src s) = true /\ pbool (r_dst s) = true).
  { intros ing. unfold conflicting_actions. rewrite orb_true_iff, !andb_true_iff, !has_action_spec. split.
    - intros [[(r & H1 & H2 & H3 & H4) (s & K1 & K2 & K3 & K4)]|[(r & H1 & H2 & H3 & H4) (s & K1 & K2 & K3 & K4)]];
        [exists Allow, Deny, r, s|exists Deny, Allow, r, s]; auto 12.
    - intros (a & b & r & s & [[-> ->]|[-> ->]] & H1 & H2 & H3 & H4 & K1 & K2 & K3 & K4); [left|right]; (split; [exists r|exists s]; auto). }
  pose proof (CA true) as C1. pose proof (CA false) as C2. cbn [rules_in_dir] in C1, C2.
  unfold is_conflicting. rewrite <- O. destruct (ord_eqb (p_ord p) (p_ord q)); cbn [negb]; [|split; [discriminate|intros [H _]; discriminate]].
  destruct (pbool (pinter (p_selected p) (p_selected q))); cbn [negb].
  2:{ split; [|intros (_ & H & _); discriminate]. destruct (_ || _); cbn [negb]; discriminate. }
  assert (EQ : (if negb (p_affects_in p && p_affects_in q || p_affects_eg p && p_affects_eg q) then false
    else if p_affects_in p && p_affects_in q && conflicting_actions (p_ingress p) (p_ingress q) then true
    else p_affects_eg p && p_affects_eg q && conflicting_actions (p_egress p) (p_egress q)) = true <->
    (p_affects_in p = true /\ p_affects_in q = true /\ conflicting_actions (p_ingress p) (p_ingress q) = true) \/
    (p_affects_eg p = true /\ p_affects_eg q = true /\ conflicting_actions (p_egress p) (p_egress q) = true)).
  { destruct (p_affects_in p), (p_affects_in q), (p_affects_eg p), (p_affects_eg q), (conflicting_actions (p_ingress p) (p_ingress q)), (conflicting_actions (p_egress p) (p_egress q)); cbn; intuition discriminate. }
  rewrite EQ, C1, C2. split.
  - intros [(H1 & H2 & a & b & r & s & H)|(H1 & H2 & a & b & r & s & H)]; (split; [reflexivity|]); (split; [reflexivity|]); [exists true, a, b, r, s|exists false, a, b, r, s]; auto.
  - intros (_ & _ & ing & a & b & r & s & H1 & H2 & H). destruct ing; [left|right]; (split; [exact H1|]); (split; [exact H2|]); exists a, b, r, s; exact H.
Qed.

(** ** Issues *)
Lemma concat_mapM : forall {X Y : Type} (f : X -> option (list Y)) l r y, mapM f l = Some r ->
  (In y (List.concat r) <-> exists x li, In x l /\ f x = Some li /\ In y li).
Proof using. clear A Q h6 rid.
  intros X Y f l r y H. destruct (mapM_in f l r H) as [M1 M2]. rewrite in_concat. split.
  - intros (li & H1 & H2). destruct (M1 li H1) as (x & Hx & E). exists x, li. auto.
  - intros (x & li & Hx & E & Hy). destruct (M2 x Hx) as (li' & H1 & E'). exists li. split; [congruence|exact Hy].
Qed.
Lemma concat_NoDup : forall {X Y : Type} (T : X -> Y -> Prop) (f : X -> option (list Y)) l r, NoDup l -> mapM f l = Some r ->
  (forall x li, In x l -> f x = Some li -> NoDup li /\ forall y, In y li -> T x y) ->
  (forall x x' y, In x l -> In x' l -> T x y -> T x' y -> x = x') -> NoDup (List.concat r).
Proof using. clear A Q h6 rid.
  intros X Y T f. induction l as [|x l IH]; intros r ND H Hf HT.
  - injection H as <-. constructor.
  - cbn [mapM] in H. destruct (f x) as [li|] eqn:E; [|discriminate]. destruct (mapM f l) as [r'|] eqn:E'; [|discriminate]. injection H as <-.
    inversion ND as [|? ? N1 N2]; subst. destruct (Hf x li (or_introl eq_refl) E) as [F1 F2]. cbn [List.concat].
    assert (IH' : NoDup (List.concat r')).
    { apply IH; auto; [intros x0 l0 Hx0; apply Hf; right; exact Hx0|intros a b y Ha Hb; apply HT; right; assumption]. }
    assert (D : forall y, In y li -> ~ In y (List.concat r')).
    { intros y Hy Hc. apply (concat_mapM f l r' y E') in Hc as (x' & li' & Hx' & Ex' & Hy'). destruct (Hf x' li' (or_intror Hx') Ex') as [_ F3].
      assert (x = x') by (apply (HT x x' y); [left; reflexivity|right; exact Hx'|auto|auto]). subst x'. contradiction. }
    clear - F1 IH' D. induction li as [|y li IHl]; [exact IH'|]. inversion F1; subst. cbn [app]. constructor.
    + intros Hi. apply in_app_or in Hi as [Hi|Hi]; [contradiction|apply (D y); [left; reflexivity|exact Hi]].
    + apply IHl; auto. intros z Hz. apply D. right. exact Hz.
Qed.
Definition about (p : policy) (i : @issue C) : Prop :=
  match i with Vacuous => False | EmptyPolicy q | EmptyRule q _ _ _ | RedundantPolicy q _ | RedundantRule q _ _ _ => q = p end.
Lemma empty_sides_spec : forall (p : policy) ing rs k i, In i (empty_sides p ing k rs) <-> exists j r (b : bool), i = EmptyRule p ing (k + j) b /\ nth_error rs j = Some r /\
  (if b then pbool (r_src r) = false else class_of (p_kind p) = CCalico /\ pbool (r_dst r) = false).
Proof using. clear A Q h6 rid.
  intros p ing. induction rs as [|r rs IH]; intros k i; cbn [empty_sides].
  - split; [intros []|]. intros (j & r & b & _ & H & _). destruct j; discriminate.
  - rewrite !in_app_iff, IH. split.
    + intros [H|[H|(j & s & b & -> & H)]].
      * destruct (pbool (r_src r)) eqn:E; [destruct H|]. destruct H as [<-|[]]. exists 0, r, true. rewrite Nat.add_0_r. auto.
      * exists 0, r, false. rewrite Nat.add_0_r. destruct (class_of (p_kind p)); try (destruct H; fail). destruct (pbool (r_dst r)) eqn:E; [destruct H|].
        destruct H as [<-|[]]. auto.
      * exists (S j), s, b. split; [f_equal; lia|exact H].
    + intros (j & s & b & -> & H & Hb). destruct j as [|j].
      * cbn [nth_error] in H. injection H as <-. rewrite Nat.add_0_r. destruct b.
        -- left. rewrite Hb. left. reflexivity.
        -- right. left. destruct Hb as [-> ->]. left. reflexivity.
      * right. right. exists j, s, b. split; [f_equal; lia|auto].
Qed.
Lemma empty_issues_spec : forall (p : policy) i, In i (empty_issues p) <-> exists ing k r (b : bool), i = EmptyRule p ing k b /\ looked_at p ing /\ 1 <= k /\
  nth_error (rules_in_dir p ing) (k - 1) = Some r /\ (if b then pbool (r_src r) = false else class_of (p_kind p) = CCalico /\ pbool (r_dst r) = false).
Proof using. clear A Q h6 rid.
  intros p i.
  assert (X : forall ing, In i (empty_sides p ing 1 (rules_in_dir p ing)) <-> exists k r (b : bool), i = EmptyRule p ing k b /\ 1 <= k /\
    nth_error (rules_in_dir p ing) (k - 1) = Some r /\ (if b then pbool (r_src r) = false else class_of (p_kind p) = CCalico /\ pbool (r_dst r) = false)).
  { intros ing. rewrite empty_sides_spec. split.
    - intros (j & r & b & -> & H & Hb). exists (1 + j), r, b. split; [reflexivity|]. split; [lia|]. replace (1 + j - 1) with j by lia. auto.
    - intros (k & r & b & -> & Hk & H & Hb). exists (k - 1), r, b. split; [f_equal; lia|]. auto. }
  unfold empty_issues. rewrite in_app_iff.
  assert (Y : forall ing, (looked_at p ing /\ In i (empty_sides p ing 1 (rules_in_dir p ing))) <-> exists k r (b : bool), i = EmptyRule p ing k b /\ looked_at p ing /\ 1 <= k /\
    nth_error (rules_in_dir p ing) (k - 1) = Some r /\ (if b then pbool (r_src r) = false else class_of (p_kind p) = CCalico /\ pbool (r_dst r) = false)).
  { intros ing. rewrite X. split; [intros (L & k & r & b & H); exists k, r, b; tauto|intros (k & r & b & H1 & H2 & H3); split; [exact H2|]; exists k, r, b; tauto]. }
  assert (Z : (exists ing k r (b : bool), i = EmptyRule p ing k b /\ looked_at p ing /\ 1 <= k /\
    nth_error (rules_in_dir p ing) (k - 1) = Some r /\ (if b then pbool (r_src r) = false else class_of (p_kind p) = CCalico /\ pbool (r_dst r) = false)) <->
    (looked_at p true /\ In i (empty_sides p true 1 (rules_in_dir p true))) \/ (looked_at p false /\ In i (empty_sides p false 1 (rules_in_dir p false)))).
  { rewrite !Y. split; [intros ([|] & H); [left|right]; exact H|intros [H|H]; [exists true|exists false]; exact H]. }
  rewrite Z. unfold looked_at. cbn [rules_in_dir]. destruct (class_of (p_kind p)); cbn [In]; intuition discriminate.
Qed.
Lemma empty_sides_NoDup : forall (p : policy) ing rs k, NoDup (empty_sides p ing k rs).
Proof using. clear A Q h6 rid.
  intros p ing. induction rs as [|r rs IH]; intros k; [constructor|]. cbn [empty_sides].
  assert (D : forall b, ~ In (EmptyRule p ing k b) (empty_sides p ing (S k) rs)).
  { intros b H. apply empty_sides_spec in H as (j & s & b' & E & _). injection E as E _. lia. }
  destruct (pbool (r_src r)), (class_of (p_kind p)), (pbool (r_dst r)); cbn [app]; repeat constructor; auto;
    try (intros [H|H]; [discriminate|apply (D _ H)]); try apply D.
Qed.
Lemma NoDup_app' : forall {X : Type} (l m : list X), NoDup l -> NoDup m -> (forall x, In x l -> ~ In x m) -> NoDup (l ++ m).
Proof using. clear A Q h6 rid.
  intros X l m Hl Hm D. induction l as [|x l IH]; [exact Hm|]. inversion Hl; subst. cbn [app]. constructor.
  - intros H. apply in_app_or in H as [H|H]; [contradiction|apply (D x (or_introl eq_refl) H)].
  - apply IH; auto. intros y Hy. apply D. right. exact Hy.
Qed.
Lemma empty_issues_NoDup : forall p : policy, NoDup (empty_issues p).
Proof using. clear A Q h6 rid.
  intros p. unfold empty_issues. apply NoDup_app'.
  - destruct (class_of (p_kind p)); try constructor; apply empty_sides_NoDup.
  - destruct (class_of (p_kind p)); try constructor; apply empty_sides_NoDup.
  - intros i H1 H2.
    assert (T : exists k b, i = EmptyRule p true k b).
    { destruct (class_of (p_kind p)); try (destruct H1; fail); apply empty_sides_spec in H1 as (j & r & b & -> & _); eauto. }
    assert (F : exists k b, i = EmptyRule p false k b).
    { destruct (class_of (p_kind p)); try (destruct H2; fail); apply empty_sides_spec in H2 as (j & r & b & -> & _); eauto. }
    destruct T as (k & b & ->), F as (k' & b' & E). discriminate.
Qed.
Lemma rule_issues_spec : forall (g : config) n p ing pols li, rule_issues A Q h6 rid g n p ing pols = Some li ->
  NoDup li /\ forall i, In i li <-> exists k r w, i = RedundantRule p ing k w /\ 1 <= k /\ nth_error (rules_in_dir p ing) (k - 1) = Some r /\
    rule_redundant A Q h6 rid g n p ing r = true /\ ~ In k (empty_rules p ing) /\ other_rule A rid p r k ing pols = Some w.
Proof.
  intros g n p ing pols li H. unfold rule_issues in H.
  set (ks := filter (fun k => negb (existsb (Nat.eqb k) (empty_rules p ing))) (redundant_rules A Q h6 rid g n p ing)) in H.
  assert (KS : forall k, In k ks <-> (exists r, 1 <= k /\ nth_error (rules_in_dir p ing) (k - 1) = Some r /\ rule_redundant A Q h6 rid g n p ing r = true) /\ ~ In k (empty_rules p ing)).
  { intros k. unfold ks. rewrite filter_In, negb_true_iff. unfold redundant_rules. rewrite indices_spec.
    assert (E : existsb (Nat.eqb k) (empty_rules p ing) = false <-> ~ In k (empty_rules p ing)).
    { rewrite <- not_true_iff_false, existsb_exists. split; intros X Y; apply X.
      - exists k. split; [exact Y|apply Nat.eqb_refl].
      - destruct Y as (x & Hx & E). apply Nat.eqb_eq in E. subst. exact Hx. }
    rewrite E. apply and_iff_compat_r. split.
    - intros (j & r & -> & H1 & H2). exists r. split; [lia|]. replace (1 + j - 1) with j by lia. auto.
    - intros (r & H1 & H2 & H3). exists (k - 1), r. split; [lia|auto]. }
  assert (RI : forall k i, rule_issue A rid p ing pols k = Some i -> exists r w, nth_error (rules_in_dir p ing) (k - 1) = Some r /\ other_rule A rid p r k ing pols = Some w /\ i = RedundantRule p ing k w).
  { intros k i E. unfold rule_issue in E. destruct (nth_error (rules_in_dir p ing) (k - 1)) as [r|]; [|discriminate].
    destruct (other_rule A rid p r k ing pols) as [w|] eqn:O; [|discriminate]. injection E as <-. exists r, w. auto. }
  split.
  - assert (ND : NoDup ks) by (apply NoDup_filter; apply indices_NoDup). clearbody ks. clear KS. revert li H. induction ks as [|k ks IH]; intros li H.
    + injection H as <-. constructor.
    + cbn [mapM] in H. destruct (rule_issue A rid p ing pols k) as [i|] eqn:E; [|discriminate].
      destruct (mapM (rule_issue A rid p ing pols) ks) as [li'|] eqn:E'; [|discriminate]. injection H as <-. inversion ND as [|? ? N1 N2]; subst.
      constructor; [|apply IH; auto]. intros Hi. destruct (mapM_in _ _ _ E') as [M _]. destruct (M i Hi) as (k' & Hk' & Ek').
      destruct (RI k i E) as (r & w & _ & _ & ->). destruct (RI k' _ Ek') as (r' & w' & _ & _ & Ei). injection Ei as <- _. contradiction.
  - destruct (mapM_in _ _ _ H) as [M1 M2]. intros i. split.
    + intros Hi. destruct (M1 i Hi) as (k & Hk & Ek). destruct (RI k i Ek) as (r & w & E1 & E2 & ->). apply KS in Hk as [(r' & K1 & K2 & K3) K4].
      exists k, r, w. rewrite E1 in K2. injection K2 as <-. auto 8.
    + intros (k & r & w & -> & K1 & K2 & K3 & K4 & K5). assert (Hk : In k ks) by (apply KS; split; [exists r; auto|exact K4]).
      destruct (M2 k Hk) as (i & Hi & Ei). unfold rule_issue in Ei. rewrite K2, K5 in Ei. injection Ei as <-. exact Hi.
Qed.
Definition named_in (p : policy) (names : list string) : Prop := In (full_name p) names.
Lemma named_in_spec : forall p names, existsb (String.eqb (full_name p)) names = true <-> named_in p names.
Proof using. clear A Q h6 rid.
  intros p names. unfold named_in. rewrite existsb_exists. split.
  - intros (s & Hs & E). apply String.eqb_eq in E. rewrite E. exact Hs.
  - intros H. exists (full_name p). split; [exact H|apply String.eqb_refl].
Qed.
Lemma policy_issues_spec : forall (g : config) vac n pols names p li, policy_issues A Q h6 rid g vac n pols names p = Some li ->
  NoDup li /\ (forall i, In i li -> about p i) /\
  forall i, In i li <->
    (i = EmptyPolicy p /\ pbool (p_selected p) = false) \/
    (pbool (p_selected p) = true /\ In i (empty_issues p)) \/
    (pbool (p_selected p) = true /\ vac = false /\ named_in p names /\ exists w, i = RedundantPolicy p w /\ policy_why A Q h6 rid g p n pols = Some w) \/
    (pbool (p_selected p) = true /\ vac = false /\ ~ named_in p names /\ exists ing k r w, i = RedundantRule p ing k w /\ 1 <= k /\
       nth_error (rules_in_dir p ing) (k - 1) = Some r /\ rule_redundant A Q h6 rid g n p ing r = true /\ ~ In k (empty_rules p ing) /\
       other_rule A rid p r k ing pols = Some w).
Proof.
  intros g vac n pols names p li H.
  assert (AB : forall i, In i (empty_issues p) -> exists ing k b, i = EmptyRule p ing k b).
  { intros i Hi. apply empty_issues_spec in Hi as (ing & k & r & b & -> & _). eauto. }
  unfold policy_issues in H. destruct (pbool (p_selected p)) eqn:S; cbn [negb] in H.
  2:{ injection H as <-. split; [repeat constructor; auto|]. split; [intros i [<-|[]]; reflexivity|]. intros i. split.
      - intros [<-|[]]. left. auto.
      - intros [[-> _]|[[X _]|[(X & _)|(X & _)]]]; [left; reflexivity|discriminate..]. }
  destruct vac.
  { injection H as <-. split; [apply empty_issues_NoDup|]. split; [intros i Hi; apply AB in Hi as (ing & k & b & ->); reflexivity|].
    intros i. split; [auto|]. intros [[_ X]|[[_ X]|[(_ & X & _)|(_ & X & _)]]]; [discriminate|exact X|discriminate|discriminate]. }
  pose proof (named_in_spec p names) as NI. destruct (existsb (String.eqb (full_name p)) names).
  { assert (N : named_in p names) by (apply NI; reflexivity). destruct (policy_why A Q h6 rid g p n pols) as [w|] eqn:W; [|discriminate]. injection H as <-.
    split; [|split].
    - apply NoDup_app'; [apply empty_issues_NoDup|repeat constructor; auto|]. intros i Hi [<-|[]]. apply AB in Hi as (ing & k & b & E). discriminate.
    - intros i Hi. apply in_app_or in Hi as [Hi|[<-|[]]]; [apply AB in Hi as (ing & k & b & ->); reflexivity|reflexivity].
    - intros i. rewrite in_app_iff. split.
      + intros [Hi|[<-|[]]]; [auto|]. right. right. left. split; [reflexivity|]. split; [reflexivity|]. split; [exact N|]. exists w. auto.
      + intros [[_ X]|[[_ X]|[(_ & _ & _ & w' & -> & X)|(_ & _ & X & _)]]]; [discriminate|auto| |contradiction]. right. left. congruence. }
  assert (N : ~ named_in p names) by (intros X; apply NI in X; discriminate).
  destruct (rule_issues A Q h6 rid g n p true pols) as [l|] eqn:E1; [|discriminate].
  destruct (rule_issues A Q h6 rid g n p false pols) as [m|] eqn:E2; [|discriminate]. injection H as <-.
  apply rule_issues_spec in E1 as [D1 M1]. apply rule_issues_spec in E2 as [D2 M2]. split; [|split].
  - apply NoDup_app'; [apply empty_issues_NoDup|apply NoDup_app'; [exact D1|exact D2|]|].
    + intros i H1 H2. apply M1 in H1 as (k & r & w & -> & _). apply M2 in H2 as (k' & r' & w' & E & _). discriminate.
    + intros i H1 H2. apply AB in H1 as (ing & k & b & ->). apply in_app_or in H2 as [H2|H2]; [apply M1 in H2 as (k' & r' & w' & E & _)|apply M2 in H2 as (k' & r' & w' & E & _)]; discriminate.
  - intros i Hi. apply in_app_or in Hi as [Hi|Hi]; [apply AB in Hi as (ing & k & b & ->); reflexivity|].
    apply in_app_or in Hi as [Hi|Hi]; [apply M1 in Hi as (k' & r' & w' & -> & _)|apply M2 in Hi as (k' & r' & w' & -> & _)]; reflexivity.
  - intros i. rewrite !in_app_iff, M1, M2. split.
    + intros [Hi|[(k & r & w & H)|(k & r & w & H)]]; [auto| |]; right; right; right; (split; [reflexivity|]); (split; [reflexivity|]); (split; [exact N|]); [exists true, k, r, w|exists false, k, r, w]; exact H.
    + intros [[_ X]|[[_ X]|[(_ & _ & X & _)|(_ & _ & _ & [|] & k & r & w & X)]]]; [discriminate|auto|contradiction| |]; right; [left|right]; exists k, r, w; exact X.
Qed.
(** Everything reported, and where it comes from. *)
Lemma sanity_issues : forall (g : config) l, inv (g_pols g) -> sanity A Q h6 rid g = Some (Issues l) ->
  has_policies g = true /\ conflict g = None /\ NoDup l /\
  forall i, In i l <-> (i = Vacuous /\ a_bool (vacuity A Q h6 rid g) = true) \/
    exists n pols p li, In (n, pols) (lays (g_pols g)) /\ is_gateway_layer n = false /\ In p pols /\
      policy_issues A Q h6 rid g (a_bool (vacuity A Q h6 rid g)) n pols (redundant_policies A Q h6 rid g pols n) p = Some li /\ In i li.
Proof.
  intros g l I H. unfold sanity in H. destruct (has_policies g); [|discriminate]. cbn [negb] in H. split; [reflexivity|].
  destruct (conflict g) as [[? ?]|]; [discriminate|]. split; [reflexivity|]. set (vac := a_bool (vacuity A Q h6 rid g)) in *. clearbody vac.
  destruct (mapM (layer_issues A Q h6 rid g vac) (lays (g_pols g))) as [r|] eqn:M; [|discriminate]. injection H as <-.
  assert (LI : forall n pols li, layer_issues A Q h6 rid g vac (n, pols) = Some li -> In (n, pols) (lays (g_pols g)) ->
    NoDup li /\ (forall i, In i li <-> is_gateway_layer n = false /\ exists p lp, In p pols /\ policy_issues A Q h6 rid g vac n pols (redundant_policies A Q h6 rid g pols n) p = Some lp /\ In i lp)).
  { intros n pols li E Hl. unfold layer_issues in E. cbn [fst snd] in E. destruct (is_gateway_layer n).
    - injection E as <-. split; [constructor|]. intros i. split; [intros []|intros [X _]; discriminate].
    - destruct (mapM _ pols) as [r'|] eqn:M'; [|discriminate]. injection E as <-. split.
      + apply (concat_NoDup about (policy_issues A Q h6 rid g vac n pols (redundant_policies A Q h6 rid g pols n)) pols r'); [apply (layer_NoDup g n pols I Hl)|exact M'| |].
        * intros p lp _ Ep. apply policy_issues_spec in Ep as (X1 & X2 & _). auto.
        * intros p p' i _ _ T1 T2. destruct i; cbn [about] in T1, T2; [contradiction|congruence..].
      + intros i. rewrite (concat_mapM _ _ _ i M'). split; [intros (p & lp & X); split; [reflexivity|]; exists p, lp; exact X|intros (_ & p & lp & X); exists p, lp; exact X]. }
  assert (CI : forall i, In i (List.concat r) <-> exists n pols p li, In (n, pols) (lays (g_pols g)) /\ is_gateway_layer n = false /\ In p pols /\
      policy_issues A Q h6 rid g vac n pols (redundant_policies A Q h6 rid g pols n) p = Some li /\ In i li).
  { intros i. rewrite (concat_mapM _ _ _ i M). split.
    - intros ([n pols] & li & Hl & E & Hi). destruct (LI n pols li E Hl) as [_ X]. apply X in Hi as (G & p & lp & H1 & H2 & H3). exists n, pols, p, lp. auto.
    - intros (n & pols & p & lp & Hl & G & H1 & H2 & H3). destruct (mapM_in _ _ _ M) as [_ M2]. destruct (M2 _ Hl) as (li & _ & E). exists (n, pols), li.
      split; [exact Hl|]. split; [exact E|]. apply (LI n pols li E Hl). split; [exact G|]. exists p, lp. auto. }
  split.
  - apply NoDup_app'.
    + destruct vac; repeat constructor; auto.
    + apply (concat_NoDup (fun l i => exists p, In p (snd l) /\ In l (lays (g_pols g)) /\ about p i) (layer_issues A Q h6 rid g vac) (lays (g_pols g)) r).
      * clear - I. pose proof (inv_layers _ I) as ND. induction (lays (g_pols g)) as [|x l IH]; [constructor|]. cbn [map] in ND. inversion ND; subst. constructor; [|auto].
        intros Hx. apply H1. apply in_map. exact Hx.
      * exact M.
      * intros [n pols] li Hl E. destruct (LI n pols li E Hl) as [X1 X2]. split; [exact X1|]. intros i Hi. apply X2 in Hi as (_ & p & lp & H1 & H2 & H3).
        exists p. cbn [snd]. split; [exact H1|]. split; [exact Hl|]. apply policy_issues_spec in H2 as (_ & X & _). auto.
      * intros [n1 l1] [n2 l2] i H1 H2 (p & P1 & P2 & P3) (p' & P1' & P2' & P3'). cbn [snd] in *.
        assert (p = p') by (destruct i; cbn [about] in *; [contradiction|congruence..]). subst p'.
        destruct (layer_policy g n1 l1 p I P2 P1) as [_ O1]. destruct (layer_policy g n2 l2 p I P2' P1') as [_ O2].
        assert (n1 = n2). { unfold of_layer in O1, O2. destruct (layer_of_type (p_kind p)); [|discriminate]. apply lname_eqb_eq in O1, O2. congruence. }
        subst n2. f_equal. apply (lget_In _ _ _ (inv_layers _ I)) in H1. apply (lget_In _ _ _ (inv_layers _ I)) in H2. congruence.
    + intros i Hi Hc. apply CI in Hc as (n & pols & p & lp & _ & _ & _ & E & Hp). apply policy_issues_spec in E as (_ & X & _). specialize (X i Hp).
      destruct vac; [destruct Hi as [<-|[]]; exact X|destruct Hi].
  - intros i. rewrite in_app_iff, CI. apply or_iff_compat_r. destruct vac; cbn [In]; split; [intros [<-|[]]; auto|intros [-> _]; auto|intros []|intros [_ X]; discriminate].
Qed.

(** If the query ends, then everything redundant was looked for an explanation. *)
Lemma explained_issues : forall (g : config) vac n pols names p li, policy_issues A Q h6 rid g vac n pols names p = Some li ->
  pbool (p_selected p) = true -> vac = false ->
  (named_in p names -> exists w, policy_why A Q h6 rid g p n pols = Some w) /\
  (~ named_in p names -> forall ing k r, 1 <= k -> nth_error (rules_in_dir p ing) (k - 1) = Some r ->
     rule_redundant A Q h6 rid g n p ing r = true -> ~ In k (empty_rules p ing) -> exists w, other_rule A rid p r k ing pols = Some w).
Proof.
  intros g vac n pols names p li H S ->. unfold policy_issues in H. rewrite S in H. cbn [negb] in H.
  pose proof (named_in_spec p names) as NI. destruct (existsb (String.eqb (full_name p)) names).
  - destruct (policy_why A Q h6 rid g p n pols) as [w|]; [|discriminate]. split; [intros _; exists w; reflexivity|intros N; exfalso; apply N; apply NI; reflexivity].
  - split; [intros N; apply NI in N; discriminate|]. intros _ ing k r K1 K2 K3 K4.
    assert (X : forall b lb, rule_issues A Q h6 rid g n p b pols = Some lb -> b = ing -> exists w, other_rule A rid p r k ing pols = Some w).
    { intros b lb E ->. unfold rule_issues in E. destruct (mapM_in _ _ _ E) as [_ M].
      destruct (M k) as (i & _ & Ei).
      - apply filter_In. split.
        + unfold redundant_rules. apply indices_spec. exists (k - 1), r. split; [lia|]. split; [exact K2|exact K3].
        + rewrite negb_true_iff, <- not_true_iff_false, existsb_exists. intros (x & Hx & Ex). apply Nat.eqb_eq in Ex. subst x. contradiction.
      - unfold rule_issue in Ei. rewrite K2 in Ei. destruct (other_rule A rid p r k ing pols) as [w|]; [exists w; reflexivity|discriminate]. }
    destruct (rule_issues A Q h6 rid g n p true pols) as [l|] eqn:E1; [|discriminate].
    destruct (rule_issues A Q h6 rid g n p false pols) as [m|] eqn:E2; [|discriminate].
    destruct ing; [apply (X true l E1 eq_refl)|apply (X false m E2 eq_refl)].
Qed.
Lemma sanity_each : forall (g : config) l n pols p, sanity A Q h6 rid g = Some (Issues l) -> In (n, pols) (lays (g_pols g)) -> is_gateway_layer n = false -> In p pols ->
  exists li, policy_issues A Q h6 rid g (a_bool (vacuity A Q h6 rid g)) n pols (redundant_policies A Q h6 rid g pols n) p = Some li.
Proof.
  intros g l n pols p H Hl G Hp. unfold sanity in H. destruct (negb (has_policies g)); [discriminate|]. destruct (conflict g) as [[? ?]|]; [discriminate|]. cbv zeta in H.
  destruct (mapM (layer_issues A Q h6 rid g (a_bool (vacuity A Q h6 rid g))) (lays (g_pols g))) as [r|] eqn:M; [|discriminate]. destruct (mapM_in _ _ _ M) as [_ M2].
  destruct (M2 _ Hl) as (li & _ & E). unfold layer_issues in E. cbn [fst snd] in E. rewrite G in E.
  destruct (mapM _ pols) as [r'|] eqn:M'; [|discriminate]. destruct (mapM_in _ _ _ M') as [_ M3]. destruct (M3 p Hp) as (lp & _ & Ep). exists lp. exact Ep.
Qed.
(** If nothing is wrong with any policy, the query ends and says so. *)
Lemma sanity_clean : forall g : config, has_policies g = true -> conflict g = None -> a_bool (vacuity A Q h6 rid g) = false ->
  (forall n pols p, In (n, pols) (lays (g_pols g)) -> is_gateway_layer n = false -> In p pols ->
     policy_issues A Q h6 rid g false n pols (redundant_policies A Q h6 rid g pols n) p = Some []) ->
  sanity A Q h6 rid g = Some (Issues []).
Proof.
  intros g H1 H2 H3 H. unfold sanity. rewrite H1, H2, H3. cbn [negb]. cbv zeta.
  assert (E : forall {X : Type} (f : X -> option (list (@issue C))) l, (forall x, In x l -> f x = Some []) -> exists r, mapM f l = Some r /\ List.concat r = []).
  { intros X f l Hf. induction l as [|x l IH]; [exists []; auto|]. cbn [mapM]. rewrite (Hf x (or_introl eq_refl)).
    destruct IH as (r & E1 & E2); [intros y Hy; apply Hf; right; exact Hy|]. rewrite E1. exists ([] :: r). auto. }
  destruct (E _ (layer_issues A Q h6 rid g false) (lays (g_pols g))) as (r & E1 & E2).
  - intros [n pols] Hl. unfold layer_issues. cbn [fst snd]. destruct (is_gateway_layer n) eqn:G; [reflexivity|].
    destruct (E _ (policy_issues A Q h6 rid g false n pols (redundant_policies A Q h6 rid g pols n)) pols) as (r & E1 & E2); [intros p Hp; apply (H n pols p Hl G Hp)|].
    rewrite E1, E2. reflexivity.
  - rewrite E1, E2. reflexivity.
Qed.

(** ** When no exception is raised *)
(** Policies of different kinds do not share a full name, and the Kubernetes/Calico layer holds policies of one kind. *)
Definition names_apart (g : config) : Prop := forall p q, In p (policy_list g) -> In q (policy_list g) -> full_name p = full_name q -> p = q.
Definition not_mixed (g : config) : Prop := forall p q, In p (policy_list g) -> In q (policy_list g) -> p_kind p = TK8s -> class_of (p_kind q) <> CCalico.
Definition one_sided (g : config) : Prop := forall p, In p (policy_list g) -> (p_kind p = TIstioAP -> p_egress p = []) /\ (p_kind p = TSidecar -> p_ingress p = []).
Lemma pfind_key : forall (g : config) p, inv (g_pols g) -> In p (policy_list g) -> pfind (policies (g_pols g)) (full_name p, p_kind p) = Some p.
Proof using. clear A Q h6 rid.
  intros g p I Hp. pose proof (inv_keys _ I) as ND. pose proof (inv_names _ I) as NM. unfold pfind. unfold policy_list in Hp.
  apply in_map_iff in Hp as ([k p'] & E & Hp). cbn [snd] in E. subst p'. destruct (NM k p Hp) as [-> _]. clear NM. revert Hp ND.
  induction (policies (g_pols g)) as [|[k q] l IH]; intros Hp ND; [destruct Hp|]. cbn [find fst]. cbn [map fst] in ND. inversion ND as [|? ? N1 N2]; subst.
  destruct (key_eqb k (full_name p, p_kind p)) eqn:E.
  - apply key_eqb_eq in E. destruct Hp as [Hp|Hp]; [injection Hp as _ <-; reflexivity|]. exfalso. apply N1. rewrite E. apply (in_map fst) in Hp. exact Hp.
  - destruct Hp as [Hp|Hp]; [|apply IH; auto]. injection Hp as -> <-. rewrite (proj2 (key_eqb_eq _ _) eq_refl) in E. discriminate.
Qed.
Lemma pfind_in : forall (g : config) s t p, inv (g_pols g) -> pfind (policies (g_pols g)) (s, t) = Some p -> In p (policy_list g) /\ full_name p = s /\ p_kind p = t.
Proof using. clear A Q h6 rid.
  intros g s t p I H. unfold pfind in H. destruct (find _ _) as [[k q]|] eqn:F; [|discriminate]. injection H as <-. apply find_some in F as [F1 F2]. cbn [fst] in F2.
  apply key_eqb_eq in F2. destruct (inv_names _ I k q F1) as [E _]. subst k. injection E as E1 E2. split; [|auto]. unfold policy_list. apply in_map_iff. exists (s, t, q). auto.
Qed.
Lemma just_one_made : forall (g : config) p, inv (g_pols g) -> names_apart g -> In p (policy_list g) -> just_one g (full_name p) = Some (with_policies g [p]).
Proof using. clear A Q h6 rid.
  intros g p I U Hp. unfold just_one, find_policy.
  assert (X : forall ts, NoDup ts -> flat_map (fun t => match pfind (policies (g_pols g)) (full_name p, t) with Some q => [q] | None => [] end) ts =
    if existsb (ptype_eqb (p_kind p)) ts then [p] else []).
  { induction ts as [|t ts IH]; intros ND; [reflexivity|]. inversion ND as [|? ? N1 N2]; subst. cbn [flat_map existsb]. rewrite (IH N2).
    destruct (pfind (policies (g_pols g)) (full_name p, t)) as [q|] eqn:E.
    - destruct (pfind_in g _ _ q I E) as (Hq & Eq & Et). assert (q = p) by (apply U; auto). subst q. rewrite Et. rewrite (proj2 (ptype_eqb_eq t t) eq_refl). cbn [orb app].
      destruct (existsb (ptype_eqb t) ts) eqn:Ex; [|reflexivity]. exfalso. apply existsb_exists in Ex as (t' & Ht & Ex). apply ptype_eqb_eq in Ex. subst t'. contradiction.
    - cbn [app]. destruct (ptype_eqb (p_kind p) t) eqn:Ek; [|reflexivity]. exfalso. apply ptype_eqb_eq in Ek. subst t. rewrite (pfind_key g p I Hp) in E. discriminate. }
  rewrite X; [|unfold all_types; repeat constructor; cbn; intuition discriminate].
  assert (T : existsb (ptype_eqb (p_kind p)) all_types = true) by (unfold all_types; destruct (p_kind p); reflexivity). rewrite T. reflexivity.
Qed.
Lemma rule_scan_runs : forall (q p : policy) r i rs k, class_of (p_kind p) <> CSidecar -> (class_of (p_kind q) = CCalico -> class_of (p_kind p) = CCalico) ->
  rule_scan A rid q p r i k rs <> None.
Proof.
  intros q p r i. induction rs as [|s rs IH]; intros k NS NC; [discriminate|]. cbn [rule_scan].
  destruct ((k =? i) && policy_eqb A rid q p); [destruct (class_of (p_kind q)); try discriminate; apply IH; auto|].
  destruct (c_cont A (r_props r) (r_props s)).
  - destruct (class_of (p_kind q)); [| |destruct (class_of (p_kind p)); try discriminate; congruence..].
    + destruct (class_of (p_kind p)); try discriminate; congruence.
    + rewrite (NC eq_refl). discriminate.
  - destruct (class_of (p_kind p)) eqn:E; try congruence; apply IH; rewrite ?E; auto; discriminate.
Qed.
Lemma search_runs : forall (g : config) n pols p, inv (g_pols g) -> names_apart g -> not_mixed g -> one_sided g -> In (n, pols) (lays (g_pols g)) -> In p pols ->
  policy_why A Q h6 rid g p n pols <> None /\
  forall ing r k, In r (rules_in_dir p ing) -> other_rule A rid p r k ing pols <> None.
Proof.
  intros g n pols p I U NM OS Hl Hp.
  assert (PL : forall q, In q pols -> In q (policy_list g) /\ of_layer n q = true) by (intros q Hq; apply (layer_policy g n pols q I Hl Hq)).
  split.
  - assert (OA : forall g1 ps, incl ps pols -> other_allow A Q h6 rid g p g1 ps <> None).
    { intros g1. induction ps as [|q ps IH]; intros S; [discriminate|]. cbn [other_allow]. destruct (ends_search p q); [discriminate|].
      assert (S' : incl ps pols) by (intros x Hx; apply S; right; exact Hx).
      destruct (policy_eqb A rid q p); [auto|]. destruct (negb _); [auto|]. rewrite (just_one_made g q I U) by (apply PL; apply S; left; reflexivity).
      destruct (a_bool _); [discriminate|auto]. }
    assert (OD : forall g1 ps, incl ps pols -> other_deny A rid g p g1 n ps <> None).
    { intros g1. induction ps as [|q ps IH]; intros S; [discriminate|]. cbn [other_deny]. destruct (ends_search p q); [discriminate|].
      assert (S' : incl ps pols) by (intros x Hx; apply S; right; exact Hx).
      destruct (policy_eqb A rid q p); [auto|]. destruct (negb _); [auto|]. rewrite (just_one_made g q I U) by (apply PL; apply S; left; reflexivity).
      destruct (deny_contained _ _ _ _); [discriminate|auto]. }
    unfold policy_why. rewrite (just_one_made g p I U) by (apply PL; exact Hp). destruct (a_bool _); [discriminate|]. cbv zeta.
    destruct (negb (has_deny_rules p) && negb (has_allow_rules p)); [discriminate|].
    set (ra := if has_allow_rules p then _ else _). assert (RA : ra <> None) by (unfold ra; destruct (has_allow_rules p); [apply OA; apply incl_refl|discriminate]).
    destruct ra as [qa|]; [|congruence].
    set (rd := if has_deny_rules p && _ then _ else _). assert (RD : rd <> None) by (unfold rd; destruct (has_deny_rules p && _); [apply OD; apply incl_refl|discriminate]).
    destruct rd as [qd|]; [|congruence]. discriminate.
  - intros ing r k Hr. assert (G : forall ps, incl ps pols -> other_rule A rid p r k ing ps <> None); [|apply G; apply incl_refl].
    induction ps as [|q ps IH]; intros S; [discriminate|]. cbn [other_rule]. destruct (ends_search p q); [discriminate|].
    assert (RC : rule_containing A rid q p r k (rules_in_dir q ing) <> None).
    { destruct (PL q (S q (or_introl eq_refl))) as [Gq Lq]. destruct (PL p Hp) as [Gp Lp]. destruct (OS q Gq) as [Oq _]. destruct (OS p Gp) as [_ Op].
      assert (KC : class_of (p_kind q) = CCalico -> class_of (p_kind p) = CCalico).
      { intros E. unfold of_layer in Lq, Lp. pose proof (NM p q Gp Gq) as NM'. destruct (p_kind q), n; cbn in E, Lq; try discriminate; destruct (p_kind p); cbn in *; try discriminate; auto; exfalso; apply NM'; reflexivity. }
      unfold rule_containing.
      assert (SC : class_of (p_kind p) = CSidecar -> class_of (p_kind q) = CIstioAP \/ class_of (p_kind q) = CSidecar).
      { unfold of_layer in Lq, Lp. destruct (p_kind p), n; cbn in *; try discriminate; intros _; destruct (p_kind q); cbn in *; try discriminate; auto. }
      assert (D : class_of (p_kind p) <> CSidecar \/ class_of (p_kind p) = CSidecar) by (destruct (class_of (p_kind p)); auto; left; discriminate). destruct D as [D|D].
      - pose proof (rule_scan_runs q p r k (rules_in_dir q ing) 1 D KC) as RS. destruct (class_of (p_kind q)); try discriminate; try exact RS; destruct (ps_subset _ _); try discriminate; exact RS.
      - destruct (SC D) as [E|E]; rewrite E; [|discriminate].
        assert (Kp : p_kind p = TSidecar) by (destruct (p_kind p); try discriminate D; reflexivity).
        assert (Kq : p_kind q = TIstioAP) by (destruct (p_kind q); try discriminate E; reflexivity).
        destruct ing; cbn [rules_in_dir] in *; [rewrite (Op Kp) in Hr; destruct Hr|]. rewrite (Oq Kq). destruct (ps_subset _ _); discriminate. }
    destruct (rule_containing A rid q p r k (rules_in_dir q ing)) as [[[j c]|]|]; [discriminate| |congruence]. apply IH. intros x Hx. apply S. right. exact Hx.
Qed.
Lemma mapM_not_none : forall {X Y : Type} (f : X -> option Y) l, (forall x, In x l -> f x <> None) -> mapM f l <> None.
Proof using. clear A Q h6 rid.
  intros X Y f l. induction l as [|x l IH]; intros H; [discriminate|]. cbn [mapM]. destruct (f x) as [y|] eqn:E; [|exfalso; apply (H x (or_introl eq_refl) E)].
  destruct (mapM f l) eqn:E'; [discriminate|]. exfalso. apply IH; [intros z Hz; apply H; right; exact Hz|reflexivity].
Qed.
Lemma sanity_runs : forall g : config, inv (g_pols g) -> names_apart g -> not_mixed g -> one_sided g -> sanity A Q h6 rid g <> None.
Proof.
  intros g I U NM OS. unfold sanity. destruct (negb (has_policies g)); [discriminate|]. destruct (conflict g) as [[? ?]|]; [discriminate|]. cbv zeta.
  set (vac := a_bool _). clearbody vac.
  assert (M : mapM (layer_issues A Q h6 rid g vac) (lays (g_pols g)) <> None).
  { apply mapM_not_none. intros [n pols] Hl. unfold layer_issues. cbn [fst snd]. destruct (is_gateway_layer n); [discriminate|].
    assert (M' : mapM (policy_issues A Q h6 rid g vac n pols (redundant_policies A Q h6 rid g pols n)) pols <> None).
    { apply mapM_not_none. intros p Hp. destruct (search_runs g n pols p I U NM OS Hl Hp) as [W O]. unfold policy_issues.
      destruct (negb (pbool (p_selected p))); [discriminate|]. destruct vac; [discriminate|]. destruct (existsb _ _).
      - destruct (policy_why A Q h6 rid g p n pols); [discriminate|congruence].
      - assert (R : forall ing, rule_issues A Q h6 rid g n p ing pols <> None).
        { intros ing. apply mapM_not_none. intros k Hk. apply filter_In in Hk as [Hk _]. unfold redundant_rules in Hk. apply indices_spec in Hk as (j & r & -> & Hj & _).
          unfold rule_issue. replace (1 + j - 1) with j by lia. unfold rules_in_dir at 1. rewrite Hj.
          pose proof (O ing r (1 + j) (nth_error_In _ _ Hj)) as On. destruct (other_rule A rid p r (1 + j) ing pols); [discriminate|congruence]. }
        pose proof (R true) as R1. pose proof (R false) as R2. destruct (rule_issues A Q h6 rid g n p true pols), (rule_issues A Q h6 rid g n p false pols); try discriminate; congruence. }
    destruct (mapM _ pols); [discriminate|congruence]. }
  destruct (mapM _ _); [discriminate|congruence].
Qed.
End Sanity.
