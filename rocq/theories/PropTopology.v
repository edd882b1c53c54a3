(** * Which endpoints a set of topology documents gives, which of them are kept, and what policies then see (C43, C58).

    The documents' meaning ([declares], [listing], [ns_of], [declared]) is defined in TopologyDocs.v and TopologyLoad.v without the finders. *)
From Coq Require Import ZArith List Bool Arith Lia String Ascii Permutation.
From Verif Require Import IntervalModel TextModel TextFacts PortProtoModel PeerModel PeerSetFacts PolicyModel PolicyLaws YamlModel ClusterModel ServiceModel SidecarModel SelectorFacts
                          PropSelectors CalicoSelectorSets IstioParserFacts TopologyModel TopologyFacts TopologyDocs TopologyLoad.
Import ListNotations.
Local Open Scope string_scope.
Local Open Scope list_scope.
Local Open Scope nat_scope.

(** ** Replicas (C43) *)
(** Names do not contain the separators of the encoding in canonical forms: Kubernetes names never do. *)
Definition well_named (e : endpoint) : Prop :=
  names_ok e /\ (forall n, e_ns e = Some n -> plain_text "," (n_name n)) /\ (e_kind e = 2 -> e_name e <> "" /\ plain_text "_" (e_name e) /\ plain_text "," (e_name e)).
(** Fewer than two of the endpoints [l] are like [e]. *)
Definition fewer_than_two (e : endpoint) (l : list endpoint) : Prop := ~ exists a x b y c, l = a ++ x :: b ++ y :: c /\ alike x e /\ alike y e.
(** Of endpoints that are alike the first two are registered, under their names. *)
Record first_two_kept (peers l : list endpoint) : Prop := {
  ft_source : forall e, In e peers -> exists l1 l2, l = l1 ++ e :: l2 /\ fewer_than_two e l1;
  ft_kept : forall l1 e l2, l = l1 ++ e :: l2 -> fewer_than_two e l1 -> In (peer_of e) (map peer_of peers);
  ft_once : NoDup (map peer_of peers)
}.

Lemma form_head : forall e, ep_form e = "" \/ exists s, ep_form e = String "," s.
Proof.
  intros e. rewrite ep_form_pieces. destruct (ordered (e_profiles e) ++ _) as [|p l]; [left; reflexivity|right]. eexists. cbn. reflexivity.
Qed.
Lemma has_last : forall c a b, has_char c (a ++ String c b)%string = true.
Proof. intros. rewrite has_char_app. cbn. rewrite Ascii.eqb_refl. apply orb_true_r. Qed.
Lemma form_kind : forall e e', wf_ep e -> wf_ep e' -> well_named e -> well_named e' -> canonical_form e = canonical_form e' -> e_kind e = e_kind e'.
Proof.
  assert (P : forall e, wf_ep e -> e_kind e = 0 -> exists n, e_ns e = Some n /\ canonical_form e = (n_name n ++ String "_" (e_workload e ++ "_" ++ ep_form e))%string).
  { intros e (_ & W & _) K. destruct (e_ns e) as [n|] eqn:E; [|destruct (proj2 W K); auto]. exists n. split; auto. unfold canonical_form. rewrite K, E. reflexivity. }
  assert (H : forall e, wf_ep e -> e_kind e = 1 -> canonical_form e = ep_form e).
  { intros e _ K. unfold canonical_form. rewrite K. destruct (e_ns e); reflexivity. }
  assert (D : forall e, e_kind e = 2 -> canonical_form e = e_name e) by (intros e K; unfold canonical_form; rewrite K; destruct (e_ns e); reflexivity).
  assert (P1 : forall e e', wf_ep e -> wf_ep e' -> well_named e -> e_kind e = 0 -> e_kind e' = 1 -> canonical_form e <> canonical_form e').
  { intros e e' W W' (_ & N & _) K K' E. destruct (P e W K) as (n & En & F). rewrite F, (H e' W' K') in E. specialize (N n En). unfold plain_text in N.
    destruct (form_head e') as [X|(s & X)]; rewrite X in E; destruct (n_name n) as [|c t]; try discriminate. injection E as -> _. cbn in N. discriminate. }
  assert (P2 : forall e e', wf_ep e -> wf_ep e' -> well_named e' -> e_kind e = 0 -> e_kind e' = 2 -> canonical_form e <> canonical_form e').
  { intros e e' W W' (_ & _ & N) K K' E. destruct (P e W K) as (n & En & F). rewrite F, (D e' K') in E. destruct (N K') as (_ & X & _). unfold plain_text in X. rewrite <- E, has_last in X. discriminate. }
  assert (P3 : forall e e', wf_ep e -> wf_ep e' -> well_named e' -> e_kind e = 1 -> e_kind e' = 2 -> canonical_form e <> canonical_form e').
  { intros e e' W W' (_ & _ & N) K K' E. rewrite (H e W K), (D e' K') in E. destruct (N K') as (X0 & _ & X). destruct (form_head e) as [Y|(s & Y)]; rewrite Y in E; [congruence|].
    unfold plain_text in X. rewrite <- E in X. cbn in X. discriminate. }
  intros e e' W W' N N' E. pose proof W as (_ & _ & L). pose proof W' as (_ & _ & L').
  destruct (e_kind e) as [|[|[|k]]] eqn:K, (e_kind e') as [|[|[|k']]] eqn:K'; try lia; exfalso.
  - exact (P1 e e' W W' N K K' E).
  - exact (P2 e e' W W' N' K K' E).
  - exact (P1 e' e W' W N' K' K (eq_sym E)).
  - exact (P3 e e' W W' N' K K' E).
  - exact (P2 e' e W' W N K' K (eq_sym E)).
  - exact (P3 e' e W' W N K' K (eq_sym E)).
Qed.
Lemma form_iff : forall e e', wf_ep e -> wf_ep e' -> well_named e -> well_named e' -> (canonical_form e = canonical_form e' <-> alike e e').
Proof.
  intros e e' W W' N N'. split; intros E; [|apply alike_form; auto]. apply form_alike; auto; try apply N; try apply N'. apply form_kind; auto.
Qed.
Lemma occ_pos : forall f l, 1 <= occ f l -> exists a x b, l = a ++ x :: b /\ canonical_form x = f /\ occ f b + 1 = occ f l.
Proof.
  intros f l. induction l as [|x l IH]; intros H; [unfold occ in H; cbn in H; lia|]. unfold occ in *. cbn [filter] in *. destruct (String.eqb_spec (canonical_form x) f) as [E|N].
  - exists [], x, l. cbn. split; auto. split; auto. lia.
  - destruct (IH H) as (a & y & b & -> & E & L). exists (x :: a), y, b. auto.
Qed.
Lemma occ_two : forall f l, 2 <= occ f l <-> exists a x b y c, l = a ++ x :: b ++ y :: c /\ canonical_form x = f /\ canonical_form y = f.
Proof.
  intros f l. split.
  - intros H. destruct (occ_pos f l) as (a & x & r & -> & Ex & Lr); [lia|]. destruct (occ_pos f r) as (b & y & c & -> & Ey & _); [lia|]. exists a, x, b, y, c. auto.
  - intros (a & x & b & y & c & -> & Ex & Ey). change (x :: b ++ y :: c) with ([x] ++ b ++ [y] ++ c). rewrite !occ_app, !occ_one, Ex, Ey, String.eqb_refl. lia.
Qed.
Lemma fewer_iff : forall e l, wf_ep e -> Forall wf_ep l -> well_named e -> Forall well_named l -> (occ (canonical_form e) l < 2 <-> fewer_than_two e l).
Proof.
  intros e l W WL N NL. rewrite Forall_forall in WL, NL.
  assert (X : 2 <= occ (canonical_form e) l <-> exists a x b y c, l = a ++ x :: b ++ y :: c /\ alike x e /\ alike y e).
  { rewrite occ_two. split; intros (a & x & b & y & c & -> & Ex & Ey); exists a, x, b, y, c; (split; [reflexivity|]).
    all: assert (Ix : In x (a ++ x :: b ++ y :: c)) by (apply in_or_app; right; left; auto).
    all: assert (Iy : In y (a ++ x :: b ++ y :: c)) by (apply in_or_app; right; right; apply in_or_app; right; left; auto).
    - split; apply form_iff; auto.
    - split; apply form_iff; auto. }
  unfold fewer_than_two. rewrite <- X. lia.
Qed.
Lemma kept_of : forall peers counts l, registered peers counts l -> Forall wf_ep l -> Forall well_named l -> first_two_kept peers l.
Proof.
  intros peers counts l [C S K O T] W N. constructor; auto.
  - intros e H. destruct (S e H) as (l1 & l2 & -> & L). exists l1, l2. split; auto. apply Forall_app in W as [W1 W2]. apply Forall_app in N as [N1 N2]. apply fewer_iff; auto; [inversion W2|inversion N2]; auto.
  - intros l1 e l2 -> L. apply (K l1 e l2 eq_refl). apply Forall_app in W as [W1 W2]. apply Forall_app in N as [N1 N2]. apply fewer_iff; auto; [inversion W2|inversion N2]; auto.
Qed.
(** What a directory of resources gives: the endpoints its documents declare, in their order; of those that are alike the first two. *)
Theorem C43_first_two_kept : forall docs st, load_resources docs = Some st ->
  exists l, declared so_far docs l /\ Forall wf_ep l /\ incl (ts_peers st) l /\ (Forall well_named l -> first_two_kept (ts_peers st) l).
Proof.
  intros docs st H. destruct (resources_read docs st H) as (l & D & R & W & _). exists l. split; [eapply declared_mono; [|exact D]; cbn; tauto|]. split; auto. split; [|intros N; exact (kept_of _ _ _ R W N)].
  intros e He. destruct (rg_source _ _ _ R e He) as (l1 & l2 & -> & _). apply in_or_app. right. left. auto.
Qed.
(** The same when namespaces and pods are given separately. *)
Theorem C43_first_two_kept_lists : forall nsdocs docs st, load_lists nsdocs docs = Some st ->
  exists l, declared (given nsdocs) docs l /\ Forall wf_ep l /\ incl (ts_peers st) l /\ (Forall well_named l -> first_two_kept (ts_peers st) l).
Proof.
  intros nsdocs docs st H. destruct (lists_read nsdocs docs st H) as (l & D & R & W & _). exists l. split; [eapply declared_mono; [|exact D]; cbn; tauto|]. split; auto. split; [|intros N; exact (kept_of _ _ _ R W N)].
  intros e He. destruct (rg_source _ _ _ R e He) as (l1 & l2 & -> & _). apply in_or_app. right. left. auto.
Qed.
(** Whatever the names: no three registered endpoints are alike, and no two have the same name. *)
Lemma at_most_two : forall peers counts l, registered peers counts l -> Forall wf_ep l -> forall a x b y c z d, peers = a ++ x :: b ++ y :: c ++ z :: d -> ~ (alike x y /\ alike x z).
Proof.
  intros peers counts l [C S K O T] W a x b y c z d E [A1 A2]. rewrite Forall_forall in W.
  assert (WP : forall e, In e peers -> wf_ep e) by (intros e He; destruct (S e He) as (l1 & l2 & -> & _); apply W; apply in_or_app; right; left; auto).
  assert (Wx : wf_ep x) by (apply WP; subst; apply in_or_app; right; left; auto).
  assert (Wy : wf_ep y) by (apply WP; subst; apply in_or_app; right; right; apply in_or_app; right; left; auto).
  assert (Wz : wf_ep z) by (apply WP; subst; apply in_or_app; right; right; apply in_or_app; right; right; apply in_or_app; right; left; auto).
  pose proof (alike_form x y Wx Wy A1) as F1. pose proof (alike_form x z Wx Wz A2) as F2.
  specialize (T (canonical_form x)). rewrite C in T. assert (Q : 3 <= occ (canonical_form x) peers); [|lia].
  subst peers. change (x :: b ++ y :: c ++ z :: d) with ([x] ++ b ++ [y] ++ c ++ [z] ++ d). rewrite !occ_app, !occ_one, <- F1, <- F2, String.eqb_refl. lia.
Qed.
Theorem C43_at_most_two : forall docs st, load_resources docs = Some st ->
  NoDup (map peer_of (ts_peers st)) /\ forall a x b y c z d, ts_peers st = a ++ x :: b ++ y :: c ++ z :: d -> ~ (alike x y /\ alike x z).
Proof. intros docs st H. destruct (resources_read docs st H) as (l & _ & R & W & _). split; [apply R|]. exact (at_most_two _ _ _ R W). Qed.
Lemma alike_sym : forall a b, alike a b -> alike b a.
Proof.
  intros a b (A & B & C). split; auto. split; [intros H; symmetry; apply B; congruence|]. intros H. destruct C as (C1 & C2 & C3 & C4); [congruence|]. split; auto. split; [|split; auto].
    - intros X. symmetry. apply C2. intros Y. rewrite Y in C1. destruct (e_ns b); [discriminate|auto].
    - clear - C3. unfold same_profiles in *. destruct (e_profiles a), (e_profiles b); try tauto. destruct C3 as [-> C3]. split; auto. apply Permutation_sym. auto.
Qed.
Lemma same_profiles_trans : forall a b c, same_profiles a b -> same_profiles b c -> same_profiles a c.
Proof.
  intros [|? ?] [|? ?] [|? ?]; cbn; try tauto. intros [-> H1] [-> H2]. split; auto. eapply perm_trans; eauto.
Qed.
Lemma alike_trans : forall a b c, alike a b -> alike b c -> alike a c.
Proof.
  intros a b c (A & B & C) (A' & B' & C'). split; [congruence|]. split; [intros H; rewrite B by auto; apply B'; congruence|]. intros H. destruct C as (C1 & C2 & C3 & C4); [auto|]. destruct C' as (D1 & D2 & D3 & D4); [congruence|].
    split; [congruence|]. split; [|split; [exact (same_profiles_trans _ _ _ C3 D3)|intros k; rewrite C4; auto]].
    intros X. rewrite (C2 X). apply D2. intros Y. rewrite Y in C1. destruct (e_ns a); [discriminate|auto].
Qed.
Lemma alike_dec : forall e x, alike x e \/ ~ alike x e.
Proof.
  intros e x. unfold alike.
      assert (Dp : forall a b : list string, Permutation a b \/ ~ Permutation a b).
      { intros a b. destruct (List.list_eq_dec string_dec (sort a) (sort b)) as [Q|Q].
        - left. eapply perm_trans; [apply perm_sort|]. rewrite Q. apply Permutation_sym. apply perm_sort.
        - right. intros H. apply Q. apply sort_perm. auto. }
      assert (Ds : forall a b, same_profiles a b \/ ~ same_profiles a b).
      { intros [|p t] [|q u]; cbn; try tauto. destruct (string_dec p q) as [->|]; [|tauto]. destruct (Dp t u); tauto. }
      assert (Dl : forall a b : list (string * string), (forall k, assoc_s k a = assoc_s k b) \/ ~ forall k, assoc_s k a = assoc_s k b).
      { intros a b. assert (Z : forall ks, (forall k, In k ks -> assoc_s k a = assoc_s k b) \/ exists k, assoc_s k a <> assoc_s k b).
        { induction ks as [|k ks IH]; [left; intros k []|]. destruct IH as [IH|IH]; auto. assert (Do : {assoc_s k a = assoc_s k b} + {assoc_s k a <> assoc_s k b}) by (repeat decide equality).
          destruct Do as [Do|Do]; [left; intros k' [<-|H]; auto|right; eauto]. }
        destruct (Z (map fst a ++ map fst b)) as [Z1|[k Z1]]; [left|right; intros H; apply Z1; auto].
        intros k. destruct (assoc_s k a) eqn:Ea.
        - rewrite <- Ea. apply Z1. apply in_or_app. left. apply assoc_In in Ea. apply (in_map fst) in Ea. exact Ea.
        - destruct (assoc_s k b) eqn:Eb; auto. rewrite <- Ea, <- Eb. apply Z1. apply in_or_app. right. apply assoc_In in Eb. apply (in_map fst) in Eb. exact Eb. }
      destruct (Nat.eq_dec (e_kind x) (e_kind e)); [|tauto]. destruct (Nat.eq_dec (e_kind x) 2) as [K2|K2].
      - destruct (string_dec (e_name x) (e_name e)); tauto.
      - assert (Dn : {option_map n_name (e_ns x) = option_map n_name (e_ns e)} + {option_map n_name (e_ns x) <> option_map n_name (e_ns e)}) by (repeat decide equality).
        assert (Dw : (e_ns x <> None -> e_workload x = e_workload e) \/ ~ (e_ns x <> None -> e_workload x = e_workload e)).
        { destruct (e_ns x); [|left; intros []; auto]. destruct (string_dec (e_workload x) (e_workload e)); [left; auto|right]. intros H. apply n0. apply H. discriminate. }
        destruct Dn; [|tauto]. destruct Dw; [|tauto]. destruct (Ds (e_profiles x) (e_profiles e)); [|tauto]. destruct (Dl (e_labels x) (e_labels e)); tauto.
Qed.
Lemma first_alike : forall e m, (forall x, In x m -> ~ alike x e) \/ exists a x b, m = a ++ x :: b /\ alike x e /\ forall z, In z a -> ~ alike z e.
Proof.
  intros e. induction m as [|u m IH]; [left; intros x []|]. destruct (alike_dec e u) as [U|U]; [right; exists [], u, m; split; [reflexivity|split; [auto|intros z []]]|].
      destruct IH as [IH|(a & x & b & -> & A & B)]; [left; intros x [<-|H]; auto|]. right. exists (u :: a), x, b. split; auto. split; auto. intros z [<-|H]; auto.
Qed.
(** If no two documents declare the same name: an endpoint is registered unless two earlier ones that are alike are. *)
Lemma unique_in : forall (l peers : list endpoint) e, NoDup (map peer_of l) -> incl peers l -> In e l -> In (peer_of e) (map peer_of peers) -> In e peers.
Proof.
  intros l peers e N I H H'. apply in_map_iff in H' as (x & E & Hx). assert (Q : x = e); [|subst; auto]. specialize (I x Hx). clear Hx peers. induction l as [|y l IH]; [destruct H|].
  cbn in N. inversion N as [|? ? N1 N2]; subst. destruct H as [->|H], I as [->|I]; auto.
  - destruct N1. rewrite <- E. apply in_map. auto.
  - destruct N1. rewrite E. apply in_map. auto.
Qed.
Theorem C43_dropped_have_two_replicas : forall peers l, first_two_kept peers l -> incl peers l -> NoDup (map peer_of l) ->
  forall l1 e l2, l = l1 ++ e :: l2 -> In e peers \/ exists x y, x <> y /\ In x l1 /\ In y l1 /\ In x peers /\ In y peers /\ alike x e /\ alike y e.
Proof.
  intros peers l [S K O] I N l1 e l2 E.
  (* the first two endpoints like e in a list *)
  assert (F : forall m, fewer_than_two e m \/ exists a x b y c, m = a ++ x :: b ++ y :: c /\ alike x e /\ alike y e /\ fewer_than_two e (a ++ x :: b) /\ fewer_than_two e a).
  { clear. assert (ML : forall m m' x, fewer_than_two x (m ++ m') -> fewer_than_two x m).
    { intros m m' x H (a & u & b & v & c & -> & U & V). apply H. exists a, u, b, v, (c ++ m'). split; [|auto]. rewrite <- app_assoc. cbn. rewrite <- app_assoc. reflexivity. }
    assert (NONE : forall m, (forall z, In z m -> ~ alike z e) -> fewer_than_two e m).
    { intros m H (a & u & b & v & c & -> & U & V). apply (H u); auto. apply in_or_app. right. left. auto. }
    assert (JUST : forall a x b, (forall z, In z a -> ~ alike z e) -> (forall z, In z b -> ~ alike z e) -> fewer_than_two e (a ++ x :: b)).
    { intros a x b Ha Hb (a' & u & b' & v & c' & Q & U & V). revert a' Q. induction a as [|w a IH]; intros a' Q.
      - destruct a' as [|w' a']; cbn in Q; injection Q as -> ->; [apply (Hb v); auto; apply in_or_app; right; left; auto|]. apply (Hb v); auto. apply in_or_app. right. right. apply in_or_app. right. left. auto.
      - destruct a' as [|w' a']; cbn in Q.
        + injection Q as -> _. apply (Ha u); auto. left. auto.
        + injection Q as -> Q. apply IH with a'; auto. intros z Hz. apply Ha. right. auto. }
    intros m. destruct (first_alike e m) as [H|(a & x & r & -> & Ax & Ha)]; [left; auto|]. destruct (first_alike e r) as [H|(b & y & c & -> & Ay & Hb)]; [left; apply JUST; auto|].
    right. exists a, x, b, y, c. split; auto. }
  destruct (F l1) as [H|(a & x & b & y & c & -> & Ax & Ay & F1 & F2)].
  - left. apply (unique_in l); auto; [subst; apply in_or_app; right; left; auto|]. exact (K l1 e l2 E H).
  - right. exists x, y.
    assert (TR : forall u m, alike u e -> fewer_than_two e m -> fewer_than_two u m).
    { intros u m U H (a' & p & b' & q & c' & -> & P & Q). apply H. exists a', p, b', q, c'. split; auto. split; eapply alike_trans; eauto. }
    assert (Ix : In x (a ++ x :: b ++ y :: c)) by (apply in_or_app; right; left; auto).
    assert (Iy : In y (a ++ x :: b ++ y :: c)) by (apply in_or_app; right; right; apply in_or_app; right; left; auto).
    split; [|split; [auto|split; [auto|split; [|split; [|auto]]]]].
    + intros <-. rewrite E in N. rewrite !map_app in N. cbn [map] in N. rewrite map_app in N. cbn [map] in N. rewrite <- !app_assoc in N. apply NoDup_remove_2 in N. apply N.
      apply in_or_app. right. cbn. apply in_or_app. left. apply in_or_app. right. left. reflexivity.
    + apply (unique_in l); auto; [subst; apply in_or_app; left; auto|]. apply (K a x ((b ++ y :: c) ++ e :: l2)); auto. rewrite E, <- app_assoc. reflexivity.
    + apply (unique_in l); auto; [subst; apply in_or_app; left; auto|]. apply (K (a ++ x :: b) y (c ++ e :: l2)); auto. rewrite E, <- !app_assoc. cbn. rewrite <- app_assoc. reflexivity.
Qed.
Lemma app_inj_l : forall a b c, (a ++ b)%string = (a ++ c)%string -> b = c.
Proof. induction a as [|x a IH]; intros b c E; cbn in E; auto. injection E as E. auto. Qed.
Lemma cut_last : forall c a k a' k', has_char c k = false -> has_char c k' = false -> (a ++ String c k)%string = (a' ++ String c k')%string -> a = a' /\ k = k'.
Proof.
  intros c. induction a as [|x a IH]; intros k [|y a'] k' H H' E; cbn in E.
  - injection E as ->. auto.
  - injection E as -> E. rewrite E, has_last in H. discriminate.
  - injection E as -> E. rewrite <- E, has_last in H'. discriminate.
  - injection E as -> E. destruct (IH k a' k' H H' E) as [-> ->]. auto.
Qed.
(** Pods without an owner are always registered (if a pod of the same name comes first, that one stands for both). *)
Theorem C43_without_owner : forall peers l, first_two_kept peers l -> Forall wf_ep l ->
  (forall x, In x l -> e_owner x <> "" -> e_owner_kind x <> "Pod" /\ has_char "(" (e_owner_kind x) = false) ->
  forall e, In e l -> e_kind e = 0 -> e_owner e = "" -> In (peer_of e) (map peer_of peers).
Proof.
  intros peers l [S K O] W HO e He Ke Oe. rewrite Forall_forall in W. destruct (first_alike e l) as [H|(a & x & b & E & A & H)].
  { exfalso. apply (H e He). split; auto. split; auto. intros _. split; auto. split; auto. split; auto. unfold same_profiles. destruct (e_profiles e); auto. }
  assert (Ix : In x l) by (rewrite E; apply in_or_app; right; left; auto).
  assert (Q : In (peer_of x) (map peer_of peers)).
  { apply (K a x b E). intros (a' & u & b' & v & c' & -> & U & V). apply (H u); [apply in_or_app; right; left; auto|]. eapply alike_trans; eauto. }
  enough (peer_of x = peer_of e) by congruence. destruct (W e He) as (_ & We & _). destruct (W x Ix) as (_ & Wx & _). destruct A as (A1 & _ & A2). rewrite Ke in A1. destruct A2 as (A2 & A3 & _); [lia|].
  assert (Nx : e_ns x <> None) by (apply Wx; auto). specialize (A3 Nx). assert (Ne : e_ns e <> None) by (apply We; auto).
  destruct (e_ns x) as [n|] eqn:Ex; [|destruct (Nx eq_refl)]. destruct (e_ns e) as [n'|] eqn:Ee; [|destruct (Ne eq_refl)]. injection A2 as A2.
  unfold peer_of, e_full. rewrite A1, Ke, Ex, Ee, A2. do 3 f_equal. unfold e_workload in A3. rewrite Ex, Ee, A2 in A3. unfold workload_name in A3. rewrite Oe in A3. cbn [String.eqb] in A3.
  assert (X : forall o k nm, has_char "(" k = false -> (n_name n' ++ "/" ++ o ++ "(" ++ k ++ ")")%string = (n_name n' ++ "/" ++ nm ++ "(Pod)")%string -> o = nm /\ k = "Pod").
  { clear. intros o k nm N E. apply app_inj_l in E. cbn [append] in E. injection E as E. apply (cut_last "(" o (k ++ ")") nm "Pod)") in E as [-> E]; auto.
    - split; auto. apply (app_inj_r k "Pod" ")"). exact E.
    - rewrite has_char_app, N. reflexivity. }
  destruct (String.eqb_spec (e_owner x) "") as [Ox|Ox].
  - apply (X _ "Pod") in A3 as [A3 _]; auto.
  - exfalso. destruct (HO x Ix Ox) as [H1 H2]. destruct (String.eqb (e_owner_kind x) "ReplicaSet").
    + destruct (forallb hexdigit _); [apply (X _ "Deployment-StatefulSet") in A3 as [_ F]|apply (X _ "ReplicaSet") in A3 as [_ F]]; auto; discriminate.
    + apply X in A3 as [_ F]; auto.
Qed.

(** ** Namespaces (C58) *)
Definition pod_kind (k : string) : Prop := k = "Pod" \/ In k creation_kinds \/ k = "WorkloadEndpoint".
Lemma declares_ns : forall V k m le e n, declares V k m le -> In e le -> e_ns e = Some n -> pod_kind k /\ exists md t, map_at m "metadata" md /\ text_at md "namespace" "default" t /\ V t n.
Proof.
  intros V k m le e n D He En. unfold declares in D. destruct (String.eqb_spec k "Pod") as [->|_].
  { destruct D as (x & -> & md & sp & lm & cs & D). destruct He as [->|[]]. decompose [and] D. split; [left; auto|]. match goal with H : in_namespace _ _ _ |- _ => destruct H as (t & n' & T & E & X) end. exists md, t. rewrite En in E. injection E as <-. auto. }
  destruct (smem k creation_kinds) eqn:Ek.
  { apply SelectorFacts.smem_In in Ek. destruct D as (r & _ & _ & D). apply In_nth_error in He as (i & Hi). destruct (D i e Hi) as (kind & md & t & ts & tm & lm & cs & name & D'). decompose [and] D'. split; [right; left; auto|].
    match goal with H : in_namespace _ _ _ |- _ => destruct H as (t' & n' & T & E & X) end. exists md, t'. rewrite En in E. injection E as <-. auto. }
  destruct (String.eqb_spec k "WorkloadEndpoint") as [->|_].
  { destruct D as (x & -> & md & sp & lm & ps & D). destruct He as [->|[]]. decompose [and] D. split; [right; right; auto|]. match goal with H : in_namespace _ _ _ |- _ => destruct H as (t & n' & T & E & X) end. exists md, t. rewrite En in E. injection E as <-. auto. }
  destruct (String.eqb k "HostEndpoint").
  { destruct D as (x & -> & md & sp & lm & ps & D). destruct He as [->|[]]. decompose [and] D. congruence. }
  destruct (String.eqb k "ServiceEntry"); [|subst le; destruct He]. destruct D as (sp & _ & D & _). destruct (D e He) as (_ & F & _). congruence.
Qed.
(** Every pod is in the namespace its document names, as described by the Namespace objects up to (and in) that document. *)
Definition pod_object (V : string -> namespace -> Prop) (y : yaml) (e : endpoint) (n : namespace) (t : string) : Prop :=
  exists os k m le md, listing "" y os /\ In (k, m) os /\ pod_kind k /\ declares V k m le /\ In e le /\ map_at m "metadata" md /\ text_at md "namespace" "default" t /\ V t n.
Lemma Forall2_concat : forall A B (P : A -> list B -> Prop) l ls x, Forall2 P l ls -> In x (List.concat ls) -> exists a b, In a l /\ P a b /\ In x b.
Proof.
  intros A B P l ls x F. induction F as [|a b l ls H F IH]; cbn; [tauto|]. intros I. apply in_app_or in I as [I|I]; [exists a, b; auto|]. destruct (IH I) as (a' & b' & I1 & I2 & I3). exists a', b'. auto.
Qed.
Lemma declared_ns : forall V docs l, declared V docs l -> forall e n, In e l -> e_ns e = Some n -> exists pre y post t, docs = pre ++ y :: post /\ pod_object (V (pre ++ [y])) y e n t.
Proof.
  induction 1 as [|docs l y os les D IH L F]; intros e n He En; [destruct He|]. apply in_app_or in He as [He|He].
  - destruct (IH e n He En) as (pre & y' & post & t & -> & P). exists pre, y', (post ++ [y]), t. split; auto. rewrite <- app_assoc. reflexivity.
  - destruct (Forall2_concat _ _ _ _ _ _ F He) as ([k m] & le & H1 & H2 & H3). cbn in H2. destruct (declares_ns _ _ _ _ _ _ H2 H3 En) as (PK & md & t & M1 & M2 & M3).
    exists docs, y, [], t. split; auto. exists os, k, m, le, md. auto 10.
Qed.
Theorem C58_namespace_of_a_pod : forall docs st, load_resources docs = Some st -> forall e n, In e (ts_peers st) -> e_ns e = Some n ->
  exists pre y post t, docs = pre ++ y :: post /\ pod_object (ns_of (flat_map namespaces_in (pre ++ [y]))) y e n t.
Proof.
  intros docs st H e n He En. destruct (C43_first_two_kept docs st H) as (l & D & _ & I & _). exact (declared_ns _ _ _ D e n (I e He) En).
Qed.
Theorem C58_namespace_of_a_pod_lists : forall nsdocs docs st, load_lists nsdocs docs = Some st -> forall e n, In e (ts_peers st) -> e_ns e = Some n ->
  exists y t, In y docs /\ pod_object (ns_of (flat_map namespaces_in nsdocs)) y e n t.
Proof.
  intros nsdocs docs st H e n He En. destruct (C43_first_two_kept_lists nsdocs docs st H) as (l & D & _ & I & _). destruct (declared_ns _ _ _ D e n (I e He) En) as (pre & y & post & t & -> & P).
  exists y, t. split; auto. apply in_or_app. right. left. auto.
Qed.
(** So, if no Namespace object comes in a later document than a pod, every pod is in its namespace as described by all documents.
    (False without the condition: PropTopologyCases.v.) *)
Definition namespaces_first (docs : list yaml) : Prop :=
  forall pre x mid y post, docs = pre ++ x :: mid ++ y :: post -> namespaces_in y = [] \/ forall os k m, listing "" x os -> In (k, m) os -> ~ pod_kind k.
Theorem C58_all_namespaces_seen : forall docs st, load_resources docs = Some st -> namespaces_first docs -> forall e n, In e (ts_peers st) -> e_ns e = Some n ->
  exists y t, In y docs /\ pod_object (ns_of (flat_map namespaces_in docs)) y e n t.
Proof.
  intros docs st H NF e n He En. destruct (C58_namespace_of_a_pod docs st H e n He En) as (pre & y & post & t & -> & P). exists y, t. split; [apply in_or_app; right; left; auto|].
  assert (Z : flat_map namespaces_in post = []).
  { pose proof P as (os & k & m & le & md & L & I & PK & _). assert (Q : forall z, In z post -> namespaces_in z = []).
    { intros z Hz. apply in_split in Hz as (a & b & ->). destruct (NF pre y a z b eq_refl) as [Q|Q]; auto. destruct (Q os k m L I PK). }
    clear - Q. induction post as [|z post IH]; cbn; auto. rewrite Q by (left; auto). apply IH. intros x Hx. apply Q. right. auto. }
  replace (flat_map namespaces_in (pre ++ y :: post)) with (flat_map namespaces_in (pre ++ [y])); auto.
  rewrite !flat_map_app. cbn [flat_map]. rewrite Z. reflexivity.
Qed.

(** ** The cluster that policies are parsed with *)
Lemma find_registered : forall l e, NoDup (map peer_of l) -> In e l -> find_ep l (peer_of e) = Some e.
Proof.
  unfold find_ep. induction l as [|x l IH]; intros e N H; [destruct H|]. cbn in N. inversion N as [|? ? N1 N2]; subst. cbn [find]. destruct (peer_eqb (peer_of x) (peer_of e)) eqn:Q.
  - apply peer_eqb_eq in Q. destruct H as [->|H]; auto. destruct N1. rewrite Q. apply in_map. auto.
  - destruct H as [->|H]; auto. assert (peer_eqb (peer_of e) (peer_of e) = true) by (apply peer_eqb_eq; auto). congruence.
Qed.
Definition loaded (st : tstate) : Prop := (exists docs, load_resources docs = Some st) \/ exists nsdocs docs, load_lists nsdocs docs = Some st.
Lemma loaded_wf : forall st, loaded st -> NoDup (map peer_of (ts_peers st)) /\ forall e, In e (ts_peers st) -> wf_ep e.
Proof.
  assert (X : forall st l, registered (ts_peers st) (ts_counts st) l -> Forall wf_ep l -> NoDup (map peer_of (ts_peers st)) /\ forall e, In e (ts_peers st) -> wf_ep e).
  { intros st l R W. split; [apply R|]. intros e He. destruct (rg_source _ _ _ R e He) as (l1 & l2 & -> & _). rewrite Forall_forall in W. apply W. apply in_or_app. right. left. auto. }
  intros st [(docs & H)|(nsdocs & docs & H)]; [destruct (resources_read docs st H) as (l & _ & R & W & _)|destruct (lists_read nsdocs docs st H) as (l & _ & R & W & _)]; exact (X st l R W).
Qed.
(** The peers are the registered endpoints, with their labels, named ports and the names of their namespaces. *)
Theorem C58_attributes : forall st, loaded st -> forall e, In e (ts_peers st) ->
  In (peer_of e) (cl_peers (cluster_of st)) /\ cl_labels (cluster_of st) (peer_of e) = e_labels e /\ cl_ports (cluster_of st) (peer_of e) = e_ports e /\
  cl_ns (cluster_of st) (peer_of e) = option_map n_name (e_ns e) /\ account_of st (peer_of e) = e_account e /\ profiles_of st (peer_of e) = e_profiles e.
Proof.
  intros st L e He. destruct (loaded_wf st L) as [N _]. unfold account_of, profiles_of, cluster_of. cbn [cl_peers cl_labels cl_ports cl_ns]. unfold of_ep. rewrite (find_registered _ _ N He).
  split; auto. apply in_map. auto.
Qed.
Lemma cluster_peers : forall st q, In q (cl_peers (cluster_of st)) -> exists e, In e (ts_peers st) /\ q = peer_of e.
Proof. intros st q H. apply in_map_iff in H as (e & <- & H). eauto. Qed.
(** The conditions that the theorems about policies put on a cluster hold. *)
Theorem C58_cluster_usable : forall st, loaded st -> cluster_ok (cluster_of st) /\ kinds_ok (cluster_of st) /\ NoDup (cl_peers (cluster_of st)).
Proof.
  intros st L. destruct (loaded_wf st L) as [N W]. split; [|split; [|exact N]].
  - intros q H. destruct (cluster_peers st q H) as (e & He & ->). exists (e_kind e), (e_full e). split; [reflexivity|]. destruct (C58_attributes st L e He) as (_ & _ & _ & -> & _).
    destruct (W e He) as (_ & X & _). destruct (e_ns e); cbn; rewrite <- X; split; intros; discriminate || (intros F; discriminate) || auto.
  - intros k n H. destruct (cluster_peers st _ H) as (e & He & [= -> _]). destruct (W e He) as (_ & _ & X). unfold kind_dns. lia.
Qed.
(** The namespace labels that selectors see are those of the last Namespace object of that name (if no document says [namespace: ""], which means default). *)
Lemma namespace_as_fun : forall y t n n', namespace_as y t n -> namespace_as y t n' -> n_name n = n_name n' /\ forall k, assoc_s k (n_labels n) = assoc_s k (n_labels n').
Proof.
  intros y t n n' (m & md & lm & -> & A & _ & B & N & L) (m' & md' & lm' & [= <-] & A' & _ & B' & N' & L'). rewrite <- (map_at_fun _ _ _ _ A A') in B'. rewrite <- (map_at_fun _ _ _ _ B B') in L'. clear - N N' L L'. split; [congruence|]. intros k.
  destruct (assoc_s k (n_labels n)) as [v|] eqn:E.
  - symmetry. apply L', L. auto.
  - destruct (assoc_s k (n_labels n')) as [v|] eqn:E'; auto. apply L' in E'. apply L in E'. congruence.
Qed.
Lemma last_unique : forall A (P : A -> Prop) (pre pre' post post' : list A) y y', pre ++ y :: post = pre' ++ y' :: post' -> P y -> P y' ->
  (forall z, In z post -> ~ P z) -> (forall z, In z post' -> ~ P z) -> y = y'.
Proof.
  induction pre as [|x pre IH]; intros [|x' pre'] post post' y y' E Py Py' H H'; cbn in E; injection E as -> E; auto.
  - destruct (H y'); auto. rewrite E. apply in_or_app. right. left. auto.
  - destruct (H' y); auto. rewrite <- E. apply in_or_app. right. left. auto.
  - exact (IH pre' post post' y y' E Py Py' H H').
Qed.
Lemma ns_of_fun : forall objs t n n', ns_of objs t n -> ns_of objs t n' -> n_name n = n_name n' /\ forall k, assoc_s k (n_labels n) = assoc_s k (n_labels n').
Proof.
  assert (X : forall y t n, namespace_as y t n -> names_ns y t) by (intros y t n (m & md & lm & A & B & C & _); exists m, md; auto).
  intros objs t n n' [(pre & y & post & -> & A & B)|[A ->]] [(pre' & y' & post' & E & A' & B')|[A' ->]]; auto.
  - assert (Q : y = y') by exact (last_unique _ (fun z => names_ns z t) _ _ _ _ _ _ E (X _ _ _ A) (X _ _ _ A') B B'). subst y'. exact (namespace_as_fun _ _ _ _ A A').
  - destruct (A' y); [apply in_or_app; right; left; auto|exact (X _ _ _ A)].
  - destruct (A y'); [rewrite E; apply in_or_app; right; left; auto|exact (X _ _ _ A')].
Qed.
Lemma ns_of_name : forall objs t n, ns_of objs t n -> n_name n = (if String.eqb t "" then "default" else t).
Proof. intros objs t n [(pre & y & post & _ & (m & md & lm & _ & _ & _ & _ & N & _) & _)|[_ ->]]; auto. Qed.
Definition no_empty_namespace (docs : list yaml) : Prop := forall y os k m md, In y docs -> listing "" y os -> In (k, m) os -> map_at m "metadata" md -> assoc_s "namespace" md <> Some (YStr "").
Lemma seen_of : forall objs docs peers, (forall e n, In e peers -> e_ns e = Some n -> exists y t, In y docs /\ pod_object (ns_of objs) y e n t) -> no_empty_namespace docs ->
  forall e, In e peers -> e_kind e = 0 -> wf_ep e -> exists t n y, In y docs /\ pod_object (ns_of objs) y e n t /\ option_map n_name (e_ns e) = Some t /\ ns_of objs t n /\ forall k, assoc_s k (seen_labels peers t) = assoc_s k (n_labels n).
Proof.
  intros objs docs peers P NE e He Ke (_ & W & _). destruct (e_ns e) as [n|] eqn:En; [|destruct (proj2 W Ke); auto]. cbn [option_map].
  assert (NM : forall e n, In e peers -> e_ns e = Some n -> exists y, In y docs /\ pod_object (ns_of objs) y e n (n_name n)).
  { clear - P NE. intros e n He En. destruct (P e n He En) as (y & t & Hy & O). exists y. split; auto. pose proof O as (os & k & m & le & md & L & I & PK & D & Ie & M & T & V).
    assert (E : n_name n = t); [|rewrite E; exact O]. rewrite (ns_of_name _ _ _ V). destruct (String.eqb_spec t "") as [->|]; auto. exfalso. destruct T as [T|[_ T]]; [|discriminate]. exact (NE y os k m md Hy L I M T). }
  destruct (NM e n He En) as (y & Hy & O). exists (n_name n), n, y. split; auto. split; auto. split; auto. assert (V : ns_of objs (n_name n) n) by (destruct O as (os & k & m & le & md & O); tauto). split; auto.
  unfold seen_labels. destruct (find _ peers) as [e'|] eqn:F.
  - apply find_some in F as [I' E']. destruct (e_ns e') as [n'|] eqn:En'; [|discriminate]. apply String.eqb_eq in E'. destruct (NM e' n' I' En') as (y' & _ & (os & k & m & le & md & O')).
    rewrite E' in O'. apply (ns_of_fun objs (n_name n)); tauto.
  - exfalso. assert (X := find_none _ _ F e He). cbv beta in X. rewrite En, String.eqb_refl in X. discriminate.
Qed.
Theorem C58_namespace_labels : forall docs st, load_resources docs = Some st -> namespaces_first docs -> no_empty_namespace docs -> forall e, In e (ts_peers st) -> e_kind e = 0 ->
  exists t n y, In y docs /\ pod_object (ns_of (flat_map namespaces_in docs)) y e n t /\ cl_ns (cluster_of st) (peer_of e) = Some t /\
    ns_of (flat_map namespaces_in docs) t n /\ forall k, assoc_s k (cl_nslabels (cluster_of st) t) = assoc_s k (n_labels n).
Proof.
  intros docs st H NF NE e He Ke. assert (L : loaded st) by (left; eauto). destruct (loaded_wf st L) as [_ W]. destruct (C58_attributes st L e He) as (_ & _ & _ & -> & _).
  exact (seen_of _ docs (ts_peers st) (C58_all_namespaces_seen docs st H NF) NE e He Ke (W e He)).
Qed.
Theorem C58_namespace_labels_lists : forall nsdocs docs st, load_lists nsdocs docs = Some st -> no_empty_namespace docs -> forall e, In e (ts_peers st) -> e_kind e = 0 ->
  exists t n y, In y docs /\ pod_object (ns_of (flat_map namespaces_in nsdocs)) y e n t /\ cl_ns (cluster_of st) (peer_of e) = Some t /\
    ns_of (flat_map namespaces_in nsdocs) t n /\ forall k, assoc_s k (cl_nslabels (cluster_of st) t) = assoc_s k (n_labels n).
Proof.
  intros nsdocs docs st H NE e He Ke. assert (L : loaded st) by (right; eauto). destruct (loaded_wf st L) as [_ W]. destruct (C58_attributes st L e He) as (_ & _ & _ & -> & _).
  exact (seen_of _ docs (ts_peers st) (C58_namespace_of_a_pod_lists nsdocs docs st H) NE e He Ke (W e He)).
Qed.
(** Named ports have numbers of the documents. *)
Definition port_entry (docs : list yaml) (n : Z) : Prop :=
  exists y os k m nm pr entry number, In y docs /\ listing "" y os /\ In (k, m) os /\ names_port number entry nm n pr /\
    ((exists sp cs, (yget m "spec" = YMap sp \/ exists kind t, template_of m kind t /\ map_at t "spec" sp) /\ list_at sp "containers" cs /\ number = "containerPort" /\ In entry (container_entries cs)) \/
     exists sp ps, map_at m "spec" sp /\ list_at sp "ports" ps /\ number = "port" /\ In entry ps).
Lemma declares_port : forall V k m le e nm n pr, declares V k m le -> In e le -> assoc_s nm (e_ports e) = Some (n, pr) ->
  exists entry number, names_port number entry nm n pr /\
    ((exists sp cs, (yget m "spec" = YMap sp \/ exists kind t, template_of m kind t /\ map_at t "spec" sp) /\ list_at sp "containers" cs /\ number = "containerPort" /\ In entry (container_entries cs)) \/
     exists sp ps, map_at m "spec" sp /\ list_at sp "ports" ps /\ number = "port" /\ In entry ps).
Proof.
  intros V k m le e nm n pr D He E.
  assert (X : forall number es, ports_are number es (e_ports e) -> exists entry, names_port number entry nm n pr /\ In entry es).
  { intros number es H. destruct (proj1 (H nm n pr) E) as (pre & y & post & Q & N & _); subst es. exists y. split; auto. apply in_or_app. right. left. auto. }
  unfold declares in D. destruct (String.eqb k "Pod").
  { destruct D as (x & -> & md & sp & lm & cs & D). destruct He as [->|[]]. decompose [and] D. match goal with H : ports_are _ _ _ |- _ => destruct (X _ _ H) as (entry & N & I) end.
    exists entry, "containerPort". split; auto. left. exists sp, cs. auto. }
  destruct (smem k creation_kinds).
  { destruct D as (r & _ & _ & D). apply In_nth_error in He as (i & Hi). destruct (D i e Hi) as (kind & md & t & ts & tm & lm & cs & name & D'). decompose [and] D'. match goal with H : ports_are _ _ _ |- _ => destruct (X _ _ H) as (entry & N & I) end.
    exists entry, "containerPort". split; auto. left. exists ts, cs. split; [right; exists kind, t; auto|auto]. }
  destruct (String.eqb k "WorkloadEndpoint").
  { destruct D as (x & -> & md & sp & lm & ps & D). destruct He as [->|[]]. decompose [and] D. match goal with H : ports_are _ _ _ |- _ => destruct (X _ _ H) as (entry & N & I) end. exists entry, "port". split; auto. right. exists sp, ps. auto. }
  destruct (String.eqb k "HostEndpoint").
  { destruct D as (x & -> & md & sp & lm & ps & D). destruct He as [->|[]]. decompose [and] D. match goal with H : ports_are _ _ _ |- _ => destruct (X _ _ H) as (entry & N & I) end. exists entry, "port". split; auto. right. exists sp, ps. auto. }
  destruct (String.eqb k "ServiceEntry"); [|subst le; destruct He]. destruct D as (sp & _ & D & _). destruct (D e He) as (_ & _ & _ & F & _). rewrite F in E. discriminate.
Qed.
Lemma declared_port : forall V docs l, declared V docs l -> forall e nm n pr, In e l -> assoc_s nm (e_ports e) = Some (n, pr) -> port_entry docs n.
Proof.
  induction 1 as [|docs l y os les D IH L F]; intros e nm n pr He E; [destruct He|]. apply in_app_or in He as [He|He].
  - destruct (IH e nm n pr He E) as (y' & os' & k & m & nm' & pr' & en & nu & I & R). exists y', os', k, m, nm', pr', en, nu. split; auto. apply in_or_app. auto.
  - destruct (Forall2_concat _ _ _ _ _ _ F He) as ([k m] & le & H1 & H2 & H3). cbn in H2. destruct (declares_port _ _ _ _ _ _ _ _ H2 H3 E) as (en & nu & N & R).
    exists y, os, k, m, nm, pr, en, nu. split; [apply in_or_app; right; left; auto|auto].
Qed.
Theorem C58_port_numbers : forall docs st, load_resources docs = Some st \/ (exists nsdocs, load_lists nsdocs docs = Some st) -> (forall n, port_entry docs n -> (1 <= n <= 65535)%Z) ->
  forall p nm n pr, assoc_s nm (cl_ports (cluster_of st) p) = Some (n, pr) -> (1 <= n <= 65535)%Z.
Proof.
  intros docs st H PE p nm n pr E. apply PE. unfold cluster_of in E. cbn [cl_ports] in E. unfold of_ep, find_ep in E. destruct (find _ (ts_peers st)) as [e|] eqn:F; [|discriminate]. apply find_some in F as [F _].
  destruct H as [H|(nsdocs & H)]; [destruct (C43_first_two_kept docs st H) as (l & D & _ & I & _)|destruct (C43_first_two_kept_lists nsdocs docs st H) as (l & D & _ & I & _)]; exact (declared_port _ _ _ D e nm n pr (I e F) E).
Qed.
