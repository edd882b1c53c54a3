(** * Facts about the groups of peers of the connectivity graph: they partition the peers, and their members have the same connections. *)
From Coq Require Import ZArith List Bool Arith Lia String Permutation.
From Verif Require Import PortProtoModel GraphModel GraphFacts.
Import ListNotations.
Local Open Scope list_scope.
Local Open Scope nat_scope.

Lemma nodup_app_l : forall X (l m : list X), NoDup (l ++ m) -> NoDup l.
Proof. intros X l m N. induction l as [|x l IH]; [constructor|]. cbn in N. apply NoDup_cons_iff in N as [A B]. constructor; auto. intros H. apply A. apply in_or_app. auto. Qed.
Lemma nodup_app_r : forall X (l m : list X), NoDup (l ++ m) -> NoDup m.
Proof. intros X l m N. induction l as [|x l IH]; [auto|]. cbn in N. apply NoDup_cons_iff in N as [A B]. auto. Qed.
Section Groups.
Context {P C : Type} (p_eqb : P -> P -> bool) (p_key p_ns : P -> string).
Context (c_eqb : C -> C -> bool) (c_true : C -> bool).
Context (PE : forall a b, p_eqb a b = true <-> a = b) (CE : forall a b, c_eqb a b = true <-> a = b).
Let pedge := (P * C * bool)%type.
(** The connection [c] is allowed from [p] to [q]. *)
Definition allowed (m : list (C * list (P * P))) (c : C) (p q : P) : Prop := exists l, In (c, l) m /\ c_true c = true /\ In (p, q) l.

Lemma p_refl : forall a, p_eqb a a = true.
Proof using PE. intros a. apply PE. auto. Qed.
Lemma p_dec : forall a b : P, a = b \/ a <> b.
Proof using PE. intros a b. destruct (p_eqb a b) eqn:E; [left; apply PE, E|right; intros H; apply PE in H; congruence]. Qed.
Lemma pmem_spec : forall a l, pmem p_eqb a l = true <-> In a l.
Proof using PE. intros a l. unfold pmem. rewrite existsb_exists. split; [intros (x & H & E); apply PE in E; subst; auto|intros H; exists a; split; auto; apply p_refl]. Qed.
Lemma edges_at_In : forall m p r c d, In (r, c, d) (edges_at p_eqb c_true m p) <-> p <> r /\ if d then allowed m c r p else allowed m c p r.
Proof using PE.
  intros m p r c d. unfold edges_at. rewrite in_flat_map. split.
  - intros ([c' l] & He & H). cbn [fst snd] in H. destruct (c_true c') eqn:T; [|destruct H]. apply in_flat_map in H as ([s t] & Hs & H). cbn [fst snd] in H.
    destruct (p_eqb s t) eqn:Est; [destruct H|]. assert (Nst : s <> t) by (intros X; apply PE in X; congruence). apply in_app_or in H as [H|H].
    + destruct (p_eqb p s) eqn:E; [|destruct H]. apply PE in E. destruct H as [H|[]]. injection H as -> -> <-. subst. split; auto. exists l. auto.
    + destruct (p_eqb p t) eqn:E; [|destruct H]. apply PE in E. destruct H as [H|[]]. injection H as -> -> <-. subst. split; auto. exists l. auto.
  - intros [N H]. assert (E1 : p_eqb p r = false) by (destruct (p_eqb p r) eqn:E; auto; apply PE in E; congruence).
    assert (E2 : p_eqb r p = false) by (destruct (p_eqb r p) eqn:E; auto; apply PE in E; congruence).
    destruct d; destruct H as (l & He & T & Hl); exists (c, l); (split; [exact He|]); cbn [fst snd]; rewrite T; apply in_flat_map.
    + exists (r, p). split; auto. cbn [fst snd]. rewrite E1, E2, p_refl. cbn. auto.
    + exists (p, r). split; auto. cbn [fst snd]. rewrite E1, p_refl. cbn. auto.
Qed.
Lemma with_self_In : forall (p : P) (l : list (P * C * bool)) r c d, In (r, c, d) (with_self p l) <-> In (r, c, d) l \/ (r = p /\ exists r' d', In (r', c, d') l).
Proof using.
  intros p l r c d. unfold with_self. rewrite in_app_iff, in_flat_map. split.
  - intros [H|(c' & Hc & H)]; [auto|right]. apply in_map_iff in Hc as ([[r' c''] d'] & E & Hc). cbn in E. subst c''.
    destruct H as [H|[H|[]]]; injection H as <- <- <-; eauto.
  - intros [H|(-> & r' & d' & H)]; [auto|right]. exists c. split; [apply in_map_iff; exists (r', c, d'); auto|]. destruct d; cbn; auto.
Qed.
Lemma pedge_eqb_spec : forall a b : pedge, pedge_eqb p_eqb c_eqb a b = true <-> a = b.
Proof using PE CE.
  intros [[a1 a2] a3] [[b1 b2] b3]. unfold pedge_eqb. cbn [fst snd]. rewrite !andb_true_iff, PE, CE, eqb_true_iff. split; [intros [[-> ->] ->]; auto|intros E; injection E; auto].
Qed.
Lemma same_edges_spec : forall l k, same_edges p_eqb c_eqb l k = true <-> forall e, In e l <-> In e k.
Proof using PE CE.
  assert (X : forall (l k : list pedge), forallb (fun e => existsb (pedge_eqb p_eqb c_eqb e) k) l = true <-> forall e, In e l -> In e k).
  { intros l k. rewrite forallb_forall. split; intros H e He.
    - apply H, existsb_exists in He as (x & Hx & E). apply pedge_eqb_spec in E. subst. auto.
    - apply existsb_exists. exists e. split; auto. apply pedge_eqb_spec. auto. }
  intros l k. unfold same_edges. rewrite andb_true_iff, !X. split; [intros [A B] e; split; auto|intros H; split; intros e; apply H].
Qed.

(** ** _find_equal_groups *)
Let gdict := list ((string * list pedge) * list P).
Definition members (d : gdict) : list P := flat_map snd d.
Record gd_inv (edges : P -> list pedge) (d : gdict) : Prop := {
  gi_ne : forall g, In g d -> snd g <> [];
  gi_eq : forall g p, In g d -> In p (snd g) -> p_ns p = fst (fst g) /\ forall e, In e (edges p) <-> In e (snd (fst g))
}.
Lemma add_group_spec : forall edges d p, gd_inv edges d -> gd_inv edges (add_group p_eqb c_eqb (p_ns p, edges p) p d) /\
  Permutation (p :: members d) (members (add_group p_eqb c_eqb (p_ns p, edges p) p d)).
Proof using PE CE p_key.
  intros edges d p. induction d as [|[k l] d IH]; intros [I1 I2]; cbn [add_group].
  - split; [|cbn; auto]. constructor; [intros g [<-|[]]; discriminate|]. intros g q [<-|[]] [<-|[]]. cbn. tauto.
  - match goal with |- context [if ?b then _ else _] => destruct b eqn:E end.
    + apply andb_true_iff in E as [E1 E2]. apply String.eqb_eq in E1. pose proof (proj1 (same_edges_spec _ _) E2) as E3. clear E2. rename E3 into E2. cbn [fst snd] in E1, E2. split.
      * constructor.
        -- intros g [<-|H]; [cbn; destruct l; discriminate|apply I1; right; auto].
        -- intros g q [<-|H] Hq; [cbn [fst snd] in Hq |- *|apply (I2 g); auto; right; auto]. apply in_app_or in Hq as [Hq|[<-|[]]]; [apply (I2 (k, l)); auto; left; auto|auto].
      * cbn [members flat_map snd]. rewrite <- app_assoc. cbn [app]. apply Permutation_middle.
    + destruct IH as [[J1 J2] J3]; [constructor; intros g H; [apply I1; right; auto|intros q; apply I2; right; auto]|]. split.
      * constructor.
        -- intros g [<-|H]; [apply (I1 (k, l)); left; auto|apply J1; auto].
        -- intros g q [<-|H] Hq; [apply (I2 (k, l)); auto; left; auto|apply (J2 g); auto].
      * cbn [members flat_map snd]. rewrite Permutation_middle. apply Permutation_app_head. exact J3.
Qed.
Lemma groups_fold : forall edges ps d, gd_inv edges d -> let d' := fold_left (fun d p => add_group p_eqb c_eqb (p_ns p, edges p) p d) ps d in
  gd_inv edges d' /\ Permutation (ps ++ members d) (members d').
Proof using PE CE p_key.
  intros edges ps. induction ps as [|p ps IH]; intros d I; cbn [fold_left app]; [auto|]. destruct (add_group_spec edges d p I) as [I' Pm].
  destruct (IH _ I') as [J K]. split; auto. rewrite <- K. rewrite Permutation_middle. apply Permutation_app_head. exact Pm.
Qed.
Lemma insert_peer_perm : forall p l, Permutation (p :: l) (insert_peer p_key p l).
Proof using. intros p l. induction l as [|x l IH]; cbn [insert_peer]; [auto|]. destruct (str_lt (p_key x) (p_key p)); [|auto]. rewrite perm_swap. apply perm_skip. exact IH. Qed.
Lemma sort_peers_perm : forall l, Permutation l (sort_peers p_key l).
Proof using. induction l as [|x l IH]; cbn [sort_peers fold_right]; [auto|]. rewrite <- insert_peer_perm. apply perm_skip. exact IH. Qed.
Lemma equal_groups_spec : forall edges ps groups left, equal_groups p_eqb p_key p_ns c_eqb edges ps = (groups, left) ->
  Permutation ps (List.concat groups ++ left) /\
  forall g, In g groups -> 2 <= List.length g /\ forall p q, In p g -> In q g -> p_ns p = p_ns q /\ forall e, In e (edges p) <-> In e (edges q).
Proof using PE CE p_key.
  intros edges ps groups left E. unfold equal_groups in E. injection E as E1 E2.
  assert (I0 : gd_inv edges []) by (constructor; [intros g []|intros g p []]).
  destruct (groups_fold edges ps [] I0) as [[I1 I2] Pm]. cbn [members flat_map] in Pm. rewrite app_nil_r in Pm.
  set (d := fold_left _ ps []) in *. subst groups left. split.
  - rewrite Pm. clear I2 Pm. induction d as [|[k l] d IH]; cbn [members flat_map snd List.concat]; [auto|].
    assert (IH' := IH (fun g Hg => I1 g (or_intror Hg))). clear IH. pose proof (I1 (k, l) (or_introl eq_refl)) as Nl. cbn [snd] in Nl. rewrite concat_app.
    destruct l as [|x [|y l]]; [congruence| |].
    + cbn [List.length Nat.ltb Nat.leb List.concat app]. rewrite <- Permutation_middle. apply perm_skip. exact IH'.
    + replace (1 <? List.length (x :: y :: l)) with true by (symmetry; apply Nat.ltb_lt; cbn; lia). cbn [List.concat]. rewrite app_nil_r, <- app_assoc. cbn [app flat_map].
      rewrite <- sort_peers_perm. apply (Permutation_app_head (x :: y :: l)). exact IH'.
  - intros g Hg. apply in_flat_map in Hg as (e & He & Hg). destruct (1 <? List.length (snd e)) eqn:L; [|destruct Hg]. destruct Hg as [<-|[]]. apply Nat.ltb_lt in L. split.
    + rewrite <- (Permutation_length (sort_peers_perm (snd e))). lia.
    + intros p q Hp Hq. apply (Permutation_in _ (Permutation_sym (sort_peers_perm (snd e)))) in Hp, Hq. destruct (I2 e p He Hp) as [A B], (I2 e q He Hq) as [A' B'].
      split; [congruence|]. intros x. exact (iff_trans (B x) (iff_sym (B' x))).
Qed.

(** ** _get_equals_groups *)
(** Peers outside a group are connected in the same way to all its members. *)
Definition alike (m : list (C * list (P * P))) (l : list P) : Prop :=
  forall p q r c, In p l -> In q l -> ~ In r l -> (allowed m c p r <-> allowed m c q r) /\ (allowed m c r p <-> allowed m c r q).
Definition unconnected (m : list (C * list (P * P))) (l : list P) : Prop := forall p q c, In p l -> In q l -> p <> q -> ~ allowed m c p q.
Definition complete (m : list (C * list (P * P))) (l : list P) : Prop :=
  forall p q p' q' c, In p l -> In q l -> p <> q -> In p' l -> In q' l -> p' <> q' -> allowed m c p q -> allowed m c p' q'.
Lemma ws_In : forall m p r c d, In (r, c, d) (with_self p (edges_at p_eqb c_true m p)) <->
  (p <> r /\ if d then allowed m c r p else allowed m c p r) \/ (r = p /\ exists r', r' <> p /\ (allowed m c r' p \/ allowed m c p r')).
Proof using PE.
  intros m p r c d. rewrite with_self_In, edges_at_In. split.
  - intros [H|(-> & r' & d' & H)]; [auto|right]. apply edges_at_In in H as [N H]. split; auto. exists r'. split; auto. destruct d'; auto.
  - intros [H|(-> & r' & N & H)]; [auto|right]. split; auto. destruct H as [H|H]; [exists r', true|exists r', false]; apply edges_at_In; auto.
Qed.
Lemma kind2 : forall m l, (forall p q, In p l -> In q l -> forall e, In e (with_self p (edges_at p_eqb c_true m p)) <-> In e (with_self q (edges_at p_eqb c_true m q))) ->
  alike m l /\ complete m l.
Proof using PE.
  intros m l H. split.
  - intros p q r c Hp Hq Hr. assert (Np : p <> r) by congruence. assert (Nq : q <> r) by congruence. split.
    + pose proof (H p q Hp Hq (r, c, false)) as K. rewrite !ws_In in K. split; intros A; [destruct (proj1 K) as [X|X]|destruct (proj2 K) as [X|X]]; auto; try apply X; destruct X as [X _]; congruence.
    + pose proof (H p q Hp Hq (r, c, true)) as K. rewrite !ws_In in K. split; intros A; [destruct (proj1 K) as [X|X]|destruct (proj2 K) as [X|X]]; auto; try apply X; destruct X as [X _]; congruence.
  - (* [c] is a connection of every member, and so is the self edge *)
    assert (S : forall p q c, In p l -> In q l -> p <> q -> (allowed m c p q <-> exists r', r' <> q /\ (allowed m c r' q \/ allowed m c q r'))).
    { intros p q c Hp Hq N. pose proof (H p q Hp Hq (q, c, false)) as K. rewrite !ws_In in K. split.
      - intros A. destruct (proj1 K) as [[X _]|[_ X]]; auto; congruence.
      - intros A. destruct (proj2 K) as [[_ X]|[X _]]; auto; congruence. }
    assert (T : forall q q' c, In q l -> In q' l -> (exists r', r' <> q /\ (allowed m c r' q \/ allowed m c q r')) -> exists r', r' <> q' /\ (allowed m c r' q' \/ allowed m c q' r')).
    { intros q q' c Hq Hq' A. pose proof (H q q' Hq Hq' (q, c, false)) as K. rewrite !ws_In in K. destruct (proj1 K) as [[X Y]|[-> X]]; auto. exists q. auto. }
    intros p q p' q' c Hp Hq N Hp' Hq' N' A. apply (S p' q'); auto. apply (T q q'); auto. apply (S p q); auto.
Qed.
Lemma kind1 : forall m l, (forall p q, In p l -> In q l -> forall e,
    In e (filter (fun e => negb (p_eqb (fst (fst e)) p)) (with_self p (edges_at p_eqb c_true m p))) <-> In e (filter (fun e => negb (p_eqb (fst (fst e)) q)) (with_self q (edges_at p_eqb c_true m q)))) ->
  alike m l /\ unconnected m l.
Proof using PE p_ns p_key.
  intros m l H.
  assert (F : forall p r c d, In (r, c, d) (filter (fun e => negb (p_eqb (fst (fst e)) p)) (with_self p (edges_at p_eqb c_true m p))) <-> p <> r /\ if d then allowed m c r p else allowed m c p r).
  { intros p r c d. rewrite filter_In, ws_In. cbn [fst]. rewrite negb_true_iff. split.
    - intros [[A|[-> _]] E]; auto. rewrite p_refl in E. discriminate.
    - intros [N A]. split; auto. destruct (p_eqb r p) eqn:E; auto. apply PE in E. congruence. }
  split.
  - intros p q r c Hp Hq Hr. assert (Np : p <> r) by congruence. assert (Nq : q <> r) by congruence. split.
    + pose proof (H p q Hp Hq (r, c, false)) as K. rewrite !F in K. tauto.
    + pose proof (H p q Hp Hq (r, c, true)) as K. rewrite !F in K. tauto.
  - intros p q c Hp Hq N A. pose proof (H p q Hp Hq (q, c, false)) as K. rewrite !F in K. tauto.
Qed.
(** edges_props: [None] if the two peers are not connected. *)
Lemma pair_props_spec : forall m a b, a <> b -> match pair_props p_eqb c_true m a b with
  | Some c => allowed m c a b \/ allowed m c b a
  | None => forall c, ~ allowed m c a b /\ ~ allowed m c b a end.
Proof using PE p_ns p_key.
  intros m a b N. unfold pair_props.
  set (hit := fun e : C * list (P * P) => c_true (fst e) && existsb (fun sd => negb (p_eqb (fst sd) (snd sd)) && ((p_eqb a (fst sd) && p_eqb b (snd sd)) || (p_eqb a (snd sd) && p_eqb b (fst sd)))) (snd e)).
  assert (Hs : forall c l, hit (c, l) = true <-> c_true c = true /\ (In (a, b) l \/ In (b, a) l)).
  { intros c l. unfold hit. cbn [fst snd]. rewrite andb_true_iff, existsb_exists. split.
    - intros [T ([s t] & H & E)]. split; auto. cbn [fst snd] in E. rewrite andb_true_iff, orb_true_iff, !andb_true_iff, !PE in E. destruct E as [_ [[-> ->]|[-> ->]]]; auto.
    - intros [T H]. split; auto. assert (Eab : p_eqb a b = false) by (destruct (p_eqb a b) eqn:E; auto; apply PE in E; congruence).
      assert (Eba : p_eqb b a = false) by (destruct (p_eqb b a) eqn:E; auto; apply PE in E; congruence).
      destruct H as [H|H]; eexists; (split; [exact H|]); cbn [fst snd]; rewrite ?Eab, ?Eba, !p_refl; auto. }
  assert (G : forall m r, match fold_left (fun r e => if hit e then Some (fst e) else r) m r with
    | Some c => r = Some c \/ exists l, In (c, l) m /\ hit (c, l) = true
    | None => r = None /\ forall e, In e m -> hit e = false end).
  { clear Hs. intros k. induction k as [|e0 k IH]; intros r; cbn [fold_left]; [destruct r; [auto|split; [auto|intros e []]]|]. destruct e0 as [c l]. specialize (IH (if hit (c, l) then Some (fst (c, l)) else r)).
    destruct (fold_left _ k _) as [x|].
    - destruct IH as [E|(l' & H & K)]; [|right; exists l'; split; [right; auto|auto]]. destruct (hit (c, l)) eqn:T; [|auto]. injection E as <-. right. exists l. split; [left; auto|auto].
    - destruct IH as [E K]. destruct (hit (c, l)) eqn:T; [discriminate E|]. split; auto. intros e [<-|He]; auto. }
  specialize (G m None). fold hit. destruct (fold_left _ m None) as [c|].
  - destruct G as [G|(l & H & K)]; [discriminate G|]. apply Hs in K as [T [K|K]]; [left|right]; exists l; auto.
  - destruct G as [_ G]. intros c. split; intros (l & H & T & K); specialize (G _ H); assert (X : hit (c, l) = true) by (apply Hs; auto); congruence.
Qed.
Record group_ok (m : list (C * list (P * P))) (g : list P * option C) : Prop := {
  go_ne : fst g <> [];
  go_ns : forall p q, In p (fst g) -> In q (fst g) -> p_ns p = p_ns q;
  go_alike : alike m (fst g);
  go_in : (snd g = None /\ unconnected m (fst g)) \/ (exists c a b, snd g = Some c /\ In a (fst g) /\ In b (fst g) /\ a <> b /\ allowed m c a b /\ complete m (fst g))
}.
Theorem groups_of_spec : forall all m gs, NoDup all -> groups_of p_eqb p_key p_ns c_eqb c_true all m = Some gs ->
  Permutation all (List.concat (map fst gs)) /\ forall g, In g gs -> group_ok m g.
Proof using PE CE p_key.
  intros all m gs Na E. unfold groups_of in E. destruct (known p_eqb c_true all m); [|discriminate E].
  destruct (equal_groups p_eqb p_key p_ns c_eqb (fun p => with_self p (edges_at p_eqb c_true m p)) all) as [g2 l2] eqn:E2. cbn [fst snd] in E.
  destruct (equal_groups p_eqb p_key p_ns c_eqb (fun p => filter (fun e => negb (p_eqb (fst (fst e)) p)) (with_self p (edges_at p_eqb c_true m p))) (filter (fun p => pmem p_eqb p l2) all)) as [g1 l1] eqn:E1. cbn [fst snd] in E. injection E as <-.
  apply equal_groups_spec in E2 as [P2 S2]. apply equal_groups_spec in E1 as [P1 S1].
  assert (N2 : NoDup (List.concat g2 ++ l2)) by (apply (Permutation_NoDup P2), Na).
  assert (L2 : Permutation (filter (fun p => pmem p_eqb p l2) all) l2).
  { apply NoDup_Permutation; [apply NoDup_filter; auto|apply nodup_app_r in N2; auto|]. intros x. rewrite filter_In, pmem_spec. split; [tauto|]. intros H. split; auto.
    apply (Permutation_in _ (Permutation_sym P2)). apply in_or_app. auto. }
  assert (Nd : forall g, In g g2 -> NoDup g).
  { intros g Hg. apply nodup_app_l in N2. clear - Hg N2. induction g2 as [|x t IH]; [destruct Hg|]. cbn in N2. destruct Hg as [->|Hg]; [apply nodup_app_l in N2; auto|apply IH; auto; apply nodup_app_r in N2; auto]. }
  split.
  - assert (X : forall (f : list P -> option C) l, map fst (map (fun g => (g, f g)) l) = l) by (intros f l; induction l; cbn; congruence).
    assert (Y : List.concat (map fst (map (fun p : P => ([p], None : option C)) l1)) = l1) by (clear; induction l1 as [|x l IH]; cbn; [auto|f_equal; exact IH]).
    assert (PR : forall l k : list P, l = k -> Permutation l k) by (intros l k ->; auto).
    rewrite !map_app, !concat_app. apply (Permutation_trans P2).
    apply Permutation_app; [apply PR; f_equal; symmetry; exact (X (fun g => match g with a :: b :: _ => pair_props p_eqb c_true m a b | _ => None end) g2)|].
    apply (Permutation_trans (Permutation_sym L2)), (Permutation_trans P1). apply Permutation_app; [apply PR; f_equal; symmetry; exact (X (fun _ => None) g1)|]. apply PR. symmetry. exact Y.
  - intros g Hg. apply in_app_or in Hg as [Hg|Hg]; [|apply in_app_or in Hg as [Hg|Hg]].
    + apply in_map_iff in Hg as (l & <- & Hl). destruct (S2 l Hl) as [Ln Sm]. destruct (kind2 m l (fun p q Hp Hq => proj2 (Sm p q Hp Hq))) as [Al Co].
      destruct l as [|a [|b t]]; [cbn in Ln; lia|cbn in Ln; lia|]. constructor; cbn [fst snd]; auto; [discriminate|intros p q Hp Hq; apply Sm; auto|].
      assert (Nab : a <> b) by (intros ->; specialize (Nd _ Hl); apply NoDup_cons_iff in Nd as [X _]; apply X; left; auto).
      pose proof (pair_props_spec m a b Nab) as K. destruct (pair_props p_eqb c_true m a b) as [c|].
      * right. destruct K as [K|K]; [exists c, a, b|exists c, b, a]; repeat split; cbn; auto.
      * left. split; auto. intros p q c Hp Hq N A. destruct (K c) as [K1 _]. apply K1. apply (Co p q a b c); cbn; auto.
    + apply in_map_iff in Hg as (l & <- & Hl). destruct (S1 l Hl) as [Ln Sm]. destruct (kind1 m l (fun p q Hp Hq => proj2 (Sm p q Hp Hq))) as [Al Co].
      constructor; cbn [fst snd]; auto; [intros ->; cbn in Ln; lia|intros p q Hp Hq; apply Sm; auto].
    + apply in_map_iff in Hg as (p & <- & Hp). constructor; cbn [fst snd]; [discriminate|intros x y [<-|[]] [<-|[]]; auto|intros x y r c [<-|[]] [<-|[]] _; tauto|].
      left. split; auto. intros x y c [<-|[]] [<-|[]] N. congruence.
Qed.
Lemma known_spec : forall all m, (forall c p q, p <> q -> allowed m c p q -> In p all /\ In q all) -> known p_eqb c_true all m = true.
Proof using PE p_ns p_key.
  intros all m H. unfold known. apply forallb_forall. intros [c l] He. cbn [fst snd]. destruct (c_true c) eqn:T; [cbn|auto]. apply forallb_forall. intros [s d] Hs. cbn [fst snd].
  destruct (p_eqb s d) eqn:E; [auto|]. assert (N : s <> d) by (intros X; apply PE in X; congruence). destruct (H c s d N) as [A B]; [exists l; auto|].
  apply pmem_spec in A, B. rewrite A, B. auto.
Qed.
End Groups.
