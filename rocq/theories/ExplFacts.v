(** * Facts about the tracker of explanations: what every step does to the record of one node. *)
From Coq Require Import ZArith List Bool Arith Lia String Ascii.
From Verif Require Import MinDfaModel ConnTextModel IntervalModel TextModel PortProtoModel GraphModel PeerModel PeerFacts PeerSetFacts PolicyModel QueryModel YamlModel ClusterModel
                          MapModel ExplModel.
Import ListNotations.
Local Open Scope string_scope.
Local Open Scope list_scope.
Local Open Scope nat_scope.

(** ** Dictionaries and sets *)
Lemma dget_dput : forall {V} (d : list (string * V)) k v k', dget (dput d k v) k' = if String.eqb k k' then Some v else dget d k'.
Proof.
  intros V d k v k'. unfold dget, dput. destruct (existsb _ d) eqn:E.
  - revert E. induction d as [|[a b] d IH]; cbn [existsb map find fst]; [discriminate|]. intros E. destruct (String.eqb_spec a k) as [->|N].
    + cbn [fst]. destruct (String.eqb_spec k k') as [->|N']; [reflexivity|]. cbn [orb] in E.
      destruct (existsb (fun e => String.eqb (fst e) k) d) eqn:F; [apply IH; reflexivity|].
      clear IH E. induction d as [|[c e] d IH]; cbn [map find fst]; [reflexivity|]. cbn [existsb fst] in F. apply orb_false_iff in F as [F1 F2]. rewrite F1. cbn [fst].
      destruct (String.eqb c k'); [reflexivity|]. apply IH. exact F2.
    + cbn [fst]. destruct (String.eqb_spec a k') as [->|N'].
      * destruct (String.eqb_spec k k') as [->|]; [congruence|reflexivity].
      * apply IH. exact E.
  - assert (G : find (fun e => String.eqb (fst e) k) d = None).
    { clear k'. induction d as [|[a b] d IH]; [reflexivity|]. cbn [existsb fst] in E. apply orb_false_iff in E as [E1 E2]. cbn [find fst]. rewrite E1. apply IH. exact E2. }
    clear E. induction d as [|[a b] d IH]; cbn [app find fst].
    + destruct (String.eqb k k'); reflexivity.
    + cbn [find fst] in G. destruct (String.eqb_spec a k) as [->|N]; [discriminate|]. destruct (String.eqb_spec a k') as [->|N'].
      * destruct (String.eqb_spec k k') as [->|]; [congruence|reflexivity].
      * apply IH. exact G.
Qed.
Lemma dput_ne : forall {V} (d : list (string * V)) k v, dput d k v <> [].
Proof. intros V [|e d] k v; unfold dput; cbn; [discriminate|]. destruct (_ || _); discriminate. Qed.
Lemma sadd_In : forall x s z, In z (PortProtoModel.sadd x s) <-> z = x \/ In z s.
Proof.
  intros x s z. unfold PortProtoModel.sadd. destruct (smem x s) eqn:E.
  - split; [auto|]. intros [->|H]; auto. apply existsb_exists in E as (y & Hy & E). apply String.eqb_eq in E. subst y. exact Hy.
  - rewrite in_app_iff. cbn [In]. intuition auto.
Qed.
Lemma sdiscard_In : forall x s z, In z (sdiscard x s) <-> z <> x /\ In z s.
Proof.
  intros x s z. unfold sdiscard. rewrite filter_In, negb_true_iff, String.eqb_neq. intuition auto.
Qed.

Section Tracker.
Context {C : Type} (A : cops C) (ends : C -> option (list (peerset * peerset))) (fname : peer -> string).
Local Notation tracker := (@tracker C).
Local Notation policy := (@policy C).
Local Notation add_to_map := (add_to_map fname).
Local Notation sadd := PortProtoModel.sadd.

Definition get0 (m : namemap) (k : string) : sset := match dget m k with Some s => s | None => [] end.
Definition hit (ps : peerset) (k : string) : bool := existsb (fun p => String.eqb (fname p) k) ps.
Lemma hit_spec : forall ps k, hit ps k = true <-> exists p, In p ps /\ fname p = k.
Proof using.
  intros ps k. unfold hit. rewrite existsb_exists. split; intros (p & H & E); exists p; (split; [exact H|]); apply String.eqb_eq; exact E.
Qed.
Lemma add_to_map_spec : forall ps m name k z, In z (get0 (add_to_map ps m name) k) <->
  if hit ps k then z = name \/ z <> default_policy /\ In z (get0 m k) else In z (get0 m k).
Proof using.
  intros ps. induction ps as [|p ps IH]; intros m name k z; cbn [hit existsb]; unfold ExplModel.add_to_map; cbn [fold_left]; [reflexivity|].
  match goal with |- In z (get0 (fold_left _ ps ?m') k) <-> _ => change (In z (get0 (add_to_map ps m' name) k) <-> if String.eqb (fname p) k || hit ps k then z = name \/ z <> default_policy /\ In z (get0 m k) else In z (get0 m k)) end.
  rewrite IH. unfold get0 at 1 2. rewrite dget_dput. destruct (String.eqb_spec (fname p) k) as [->|N]; cbn [orb].
  - fold (get0 m k). pose proof (sadd_In name (sdiscard default_policy (get0 m k)) z) as X. rewrite sdiscard_In in X. destruct (hit ps k); [|exact X]. clear - X. tauto.
  - reflexivity.
Qed.
Lemma add_to_map_nil : forall ps m name, add_to_map ps m name = [] <-> m = [] /\ ps = [].
Proof using.
  intros ps. induction ps as [|p ps IH]; intros m name; unfold ExplModel.add_to_map; cbn [fold_left]; [tauto|].
  match goal with |- fold_left _ ps ?m' = [] <-> _ => change (add_to_map ps m' name = [] <-> m = [] /\ p :: ps = []) end.
  rewrite IH. split; [intros [H _]; exfalso; revert H; apply dput_ne|intros [_ H]; discriminate].
Qed.

(** ** The record of one node *)
Definition map_at (t : tracker) (ing : bool) (n : string) : namemap := match dget (t_of t) n with Some a => of_dir ing a | None => [] end.
Definition all_at (t : tracker) (n : string) : sset := match dget (t_of t) n with Some a => af_all a | None => [] end.
Definition known (t : tracker) (n : string) : bool := match dget (t_of t) n with Some _ => true | None => false end.
Definition item_at (t : tracker) (n : string) : bool := match dget (t_items t) n with Some _ => true | None => false end.

(** One call of add_peer_policy. *)
Lemma peer_policy_spec : forall (t : tracker) q name eg inn n, item_at t n = true ->
  let t' := add_peer_policy fname t q name eg inn in
  t_items t' = t_items t /\ t_conns t' = t_conns t /\ t_peers t' = t_peers t /\ t_ep t' = t_ep t /\
  (q <> n -> dget (t_of t') n = dget (t_of t) n) /\
  (q = n -> known t' n = true /\ (forall z, In z (all_at t' n) <-> z = name \/ In z (all_at t n)) /\
     forall ing : bool, let others := if ing then inn else eg in
       (map_at t' ing n = [] <-> map_at t ing n = [] /\ others = []) /\
       (others = [] -> map_at t' ing n = map_at t ing n) /\
       forall k z, In z (get0 (map_at t' ing n) k) <-> if hit others k then z = name \/ z <> default_policy /\ In z (get0 (map_at t ing n) k) else In z (get0 (map_at t ing n) k)).
Proof using.
  intros t q name eg inn n Hi. cbv zeta. unfold add_peer_policy. destruct (dget (t_items t) q) as [e|] eqn:Eq.
  2:{ do 4 (split; [reflexivity|]). split; [reflexivity|]. intros ->. unfold item_at in Hi. rewrite Eq in Hi. discriminate. }
  cbn [set_of t_items t_conns t_peers t_ep t_of]. do 4 (split; [reflexivity|]). split.
  - intros N. rewrite dget_dput. destruct (String.eqb_spec q n); [congruence|reflexivity].
  - intros ->. unfold known, all_at, map_at. cbn [set_of t_of]. rewrite dget_dput, String.eqb_refl. split; [reflexivity|].
    set (a := match dget (t_of t) n with Some a => a | None => affecting_init end).
    assert (E1 : (match dget (t_of t) n with Some a => af_all a | None => [] end) = af_all a) by (unfold a; destruct (dget (t_of t) n); reflexivity).
    assert (E2 : forall ing, (match dget (t_of t) n with Some a => of_dir ing a | None => [] end) = of_dir ing a) by (intros ing; unfold a; destruct (dget (t_of t) n); [reflexivity|destruct ing; reflexivity]).
    rewrite E1. clearbody a. split; [intros z; cbn [add_policy af_all]; apply sadd_In|]. intros ing. rewrite E2. clear E1 E2.
    assert (E : of_dir ing (add_policy fname a name eg inn) = let o := if ing then inn else eg in if pbool o then add_to_map o (of_dir ing a) name else of_dir ing a) by (destruct ing; reflexivity).
    rewrite E. clear E. cbv zeta. destruct (if ing then inn else eg) as [|p ps]; cbn [pbool].
    + split; [tauto|]. split; [reflexivity|]. intros k z. cbn [hit existsb]. reflexivity.
    + split; [apply add_to_map_nil|]. split; [discriminate|]. intros k z. apply add_to_map_spec.
Qed.

(** The peers of a connection set as the tracker sees them. *)
Definition sides (x : C) : peerset * peerset :=
  match ends x with Some l => fold_left (fun r e => (ps_union (fst r) (fst e), ps_union (snd r) (snd e))) l ([], []) | None => ([], []) end.
Definition extractable (x : C) : Prop := exists l, ends x = Some l /\ forall e, In e l -> fst e <> [] /\ snd e <> [].
Lemma extract_sides : forall (t : tracker) x, extractable x -> extract_peers ends t x = Some (sides x).
Proof using.
  intros t x (l & E & H). unfold extract_peers, sides. rewrite E. cbn [bind]. f_equal. clear E. generalize (@nil peer, @nil peer) as r. revert H.
  induction l as [|e l IH]; intros H r; cbn [fold_left]; [reflexivity|]. destruct (H e (or_introl eq_refl)) as [H1 H2].
  destruct (fst e) as [|p ps] eqn:E1; [congruence|]. destruct (snd e) as [|q qs] eqn:E2; [congruence|]. cbn [pbool]. apply IH. intros e' He. apply H. right. exact He.
Qed.
(** The peers on the other side of what a policy allows. *)
Definition proj (p : policy) (ing : bool) : peerset := if ing then fst (sides (allow_props A p true)) else snd (sides (allow_props A p false)).
Definition readable (p : policy) : Prop := forall ing, extractable (allow_props A p ing).
Definition chosen_by (p : policy) (n : string) : bool := hit (p_selected p) n.

Lemma policy_step : forall p (t : tracker) n, readable p -> p_name p <> default_policy -> item_at t n = true ->
  exists t', add_policy_to_peers A ends fname t p = Some t' /\
    t_items t' = t_items t /\ t_conns t' = t_conns t /\ t_ep t' = t_ep t /\
    known t' n = known t n || chosen_by p n /\
    (forall z, In z (all_at t' n) <-> In z (all_at t n) \/ chosen_by p n = true /\ z = p_name p) /\
    forall ing, (map_at t' ing n = [] <-> map_at t ing n = [] /\ (chosen_by p n = true -> proj p ing = [])) /\
      forall k z, (forall u, In u (get0 (map_at t ing n) k) -> u <> default_policy) ->
        (In z (get0 (map_at t' ing n) k) <-> In z (get0 (map_at t ing n) k) \/ chosen_by p n = true /\ hit (proj p ing) k = true /\ z = p_name p).
Proof using.
  intros p t n Rd Nm. unfold add_policy_to_peers, chosen_by. revert t. generalize (p_selected p) as qs.
  assert (E : forall t : tracker, bind (extract_peers ends t (allow_props A p true)) (fun i => bind (extract_peers ends t (allow_props A p false)) (fun e => Some (add_peer_policy fname t n (p_name p) (snd e) (fst i)))) = Some (add_peer_policy fname t n (p_name p) (proj p false) (proj p true))).
  { intros t. rewrite !extract_sides by apply Rd. reflexivity. }
  induction qs as [|q qs IH]; intros t Hi; cbn [fold_left hit existsb].
  - exists t. do 4 (split; [reflexivity|]). split; [rewrite orb_false_r; reflexivity|]. split; [intros z; intuition discriminate|].
    intros ing. split; [intuition discriminate|]. intros k z _. intuition discriminate.
  - cbn [bind]. rewrite !extract_sides by apply Rd. cbn [bind].
    change (snd (sides (allow_props A p false))) with (proj p false). change (fst (sides (allow_props A p true))) with (proj p true). clear E.
    pose proof (peer_policy_spec t (fname q) (p_name p) (proj p false) (proj p true) n Hi) as S. cbv zeta in S. destruct S as (S1 & S2 & S3 & S4 & S5 & S6).
    set (t1 := add_peer_policy fname t (fname q) (p_name p) (proj p false) (proj p true)) in *. clearbody t1.
    destruct (IH t1) as (t' & F & T1 & T2 & T3 & T4 & T5 & T6). { unfold item_at. rewrite S1. exact Hi. }
    exists t'. split; [exact F|]. split; [congruence|]. split; [congruence|]. split; [congruence|]. fold (hit qs n). clear F IH.
    destruct (String.eqb_spec (fname q) n) as [Eq|Ne]; cbn [orb].
    + clear S5. destruct (S6 Eq) as (K1 & K2 & K3). clear S6. split; [rewrite T4, K1, orb_true_r; reflexivity|]. split.
      * intros z. rewrite T5, K2. intuition auto.
      * intros ing. destruct (T6 ing) as [U1 U2]. destruct (K3 ing) as (V1 & _ & V2). replace (if ing then proj p true else proj p false) with (proj p ing) in V1, V2 by (destruct ing; reflexivity). split; [rewrite U1, V1; intuition auto|].
        intros k z Nd.
        assert (Nd1 : forall u, In u (get0 (map_at t1 ing n) k) -> u <> default_policy).
        { intros u Hu. apply V2 in Hu. destruct (hit (proj p ing) k); [destruct Hu as [->|[Hu _]]; auto|auto]. }
        rewrite (U2 k z Nd1), V2. specialize (Nd z). destruct (hit (proj p ing) k); [|intuition discriminate]. destruct (hit qs n); intuition auto.
    + specialize (S5 Ne). clear S6.
      assert (X1 : known t1 n = known t n) by (unfold known; rewrite S5; reflexivity). assert (X2 : all_at t1 n = all_at t n) by (unfold all_at; rewrite S5; reflexivity).
      assert (X3 : forall ing, map_at t1 ing n = map_at t ing n) by (intros ing; unfold map_at; rewrite S5; reflexivity).
      rewrite X1 in T4. split; [exact T4|]. split; [intros z; rewrite T5, X2; reflexivity|]. intros ing. specialize (T6 ing). rewrite X3 in T6. exact T6.
Qed.

(** ** Loading *)
Definition is_named (n : string) (p : policy) : Prop := p_name p = n.
(** What is known about the node [n] after the policies [l]. *)
Record loaded_at (t : tracker) (n : string) (l : list policy) : Prop := LoadedAt {
  la_item : item_at t n = true;
  la_known : known t n = existsb (fun p => chosen_by p n) l;
  la_all : forall z, In z (all_at t n) <-> exists p, In p l /\ chosen_by p n = true /\ z = p_name p;
  la_nil : forall ing, map_at t ing n = [] <-> forall p, In p l -> chosen_by p n = true -> proj p ing = [];
  la_list : forall ing k z, In z (get0 (map_at t ing n) k) <-> exists p, In p l /\ chosen_by p n = true /\ hit (proj p ing) k = true /\ z = p_name p }.
Definition sound (l : list policy) : Prop := forall p, In p l -> readable p /\ p_name p <> default_policy.

Lemma item_kept : forall (t : tracker) path ln name work n, item_at t n = true -> item_at (add_item t path ln name work) n = true.
Proof using.
  intros t path ln name work n H. unfold add_item, item_at in *. destruct (String.eqb name ""); [exact H|]. cbn [set_items t_items]. rewrite dget_dput. destruct (String.eqb name n); [reflexivity|exact H].
Qed.
Lemma loaded_item : forall (t : tracker) n l path ln name work, loaded_at t n l -> loaded_at (add_item t path ln name work) n l.
Proof using.
  intros t n l path ln name work [H1 H2 H3 H4 H5]. pose proof (item_kept t path ln name work n H1) as I. unfold add_item in *. destruct (String.eqb name ""); constructor; auto.
Qed.
Lemma loaded_policy : forall (t : tracker) n l p, loaded_at t n l -> sound (l ++ [p]) ->
  exists t', add_policy_to_peers A ends fname t p = Some t' /\ loaded_at t' n (l ++ [p]) /\ t_items t' = t_items t /\ t_conns t' = t_conns t /\ t_ep t' = t_ep t.
Proof using.
  intros t n l p [H1 H2 H3 H4 H5] Sd. destruct (Sd p) as [Rd Nm]; [apply in_or_app; right; left; reflexivity|].
  destruct (policy_step p t n Rd Nm H1) as (t' & E & T1 & T2 & T3 & T4 & T5 & T6). exists t'. split; [exact E|]. split; [|auto].
  assert (IA : forall P : policy -> Prop, (exists q, In q (l ++ [p]) /\ P q) <-> (exists q, In q l /\ P q) \/ P p).
  { intros P. split; [intros (q & Hq & H); apply in_app_or in Hq as [Hq|[<-|[]]]; eauto|]. intros [(q & Hq & H)|H]; [exists q|exists p]; (split; [apply in_or_app; cbn; auto|exact H]). }
  constructor.
  - unfold item_at. rewrite T1. exact H1.
  - rewrite T4, H2, existsb_app. cbn [existsb]. rewrite orb_false_r. reflexivity.
  - intros z. rewrite T5, H3, IA. reflexivity.
  - intros ing. destruct (T6 ing) as [U _]. rewrite U, H4. split.
    + intros [V1 V2] q Hq Hc. apply in_app_or in Hq as [Hq|[<-|[]]]; auto.
    + intros V. split; [intros q Hq; apply V; apply in_or_app; auto|]. apply V. apply in_or_app. right. left. reflexivity.
  - intros ing k z. destruct (T6 ing) as [_ U]. rewrite U, H5, IA; [tauto|]. intros u Hu. apply H5 in Hu as (q & Hq & _ & _ & ->). apply Sd. apply in_or_app. auto.
Qed.
Lemma sound_app : forall l m, sound (l ++ m) -> sound l.
Proof using. intros l m H p Hp. apply H. apply in_or_app. auto. Qed.
Lemma foldM_cons : forall {S X} (f : S -> X -> option S) x l s, foldM f (x :: l) s = bind (f s x) (fun s => foldM f l s).
Proof using.
  intros S X f x l s. unfold foldM. cbn [fold_left bind]. destruct (f s x) as [s'|]; cbn [bind]; [reflexivity|].
  induction l as [|y l IH]; cbn [fold_left bind]; auto.
Qed.
(** The items of the documents and policies. *)
Lemma foldM_loaded : forall {X} (f : tracker -> X -> option tracker) (of : X -> list policy),
  (forall t n l x, loaded_at t n l -> sound (l ++ of x) -> exists t', f t x = Some t' /\ loaded_at t' n (l ++ of x)) ->
  forall xs t n l, loaded_at t n l -> sound (l ++ flat_map of xs) -> exists t', foldM f xs t = Some t' /\ loaded_at t' n (l ++ flat_map of xs).
Proof using.
  intros X f of F xs. induction xs as [|x xs IH]; intros t n l H Sd; cbn [flat_map] in *.
  - exists t. rewrite app_nil_r. split; [reflexivity|exact H].
  - rewrite app_assoc in Sd. rewrite foldM_cons. destruct (F t n l x H (sound_app _ _ Sd)) as (t1 & -> & H1). cbn [bind]. rewrite app_assoc. apply IH; assumption.
Qed.
Lemma load_spec : forall (t : tracker) docs gates sidecars n, loaded_at t n [] -> sound (all_loaded docs gates sidecars) ->
  exists t', load A ends fname t docs gates sidecars = Some t' /\ loaded_at t' n (all_loaded docs gates sidecars).
Proof using.
  intros t docs gates sidecars n H Sd. unfold load, all_loaded in *.
  destruct (foldM_loaded (load_doc A ends fname) (fun d => match d with DPolicy p _ _ => [p] | _ => [] end)) with (xs := docs) (t := t) (n := n) (l := @nil policy) as (t1 & E1 & H1).
  { intros t0 n0 l d Hl Hs. destruct d as [p path ln|name path ln]; cbn [load_doc].
    - destruct (loaded_policy t0 n0 l p Hl Hs) as (t' & -> & H' & _). cbn [bind]. eexists. split; [reflexivity|]. apply loaded_item. exact H'.
    - rewrite app_nil_r. eexists. split; [reflexivity|]. apply loaded_item. exact Hl. }
  { exact H. }
  { exact (sound_app _ _ Sd). }
  rewrite E1. cbn [bind]. cbn [app] in H1. change (flat_map _ docs) with (doc_policies docs) in H1. rewrite app_assoc in Sd.
  assert (Mg : flat_map (fun g : policy * string * Z => [fst (fst g)]) gates = map (fun g => fst (fst g)) gates) by (clear; induction gates as [|g gates IH]; cbn; [reflexivity|f_equal; exact IH]).
  destruct (foldM_loaded (load_gate A ends fname) (fun g => [fst (fst g)])) with (xs := gates) (t := t1) (n := n) (l := doc_policies docs) as (t2 & E2 & H2).
  { intros t0 n0 l g Hl Hs. unfold load_gate. destruct (loaded_policy (add_item t0 (snd (fst g)) (snd g) (p_name (fst (fst g))) "") n0 l (fst (fst g)) (loaded_item _ _ _ _ _ _ _ Hl) Hs) as (t' & -> & H' & _). eauto. }
  { exact H1. }
  { rewrite Mg. exact (sound_app _ _ Sd). }
  rewrite E2. cbn [bind]. rewrite Mg in H2.
  assert (Ms : flat_map (fun p : policy => [p]) sidecars = sidecars) by (clear; induction sidecars as [|g s IH]; cbn; [reflexivity|f_equal; exact IH]).
  destruct (foldM_loaded (add_policy_to_peers A ends fname) (fun p => [p])) with (xs := sidecars) (t := t2) (n := n) (l := doc_policies docs ++ map (fun g => fst (fst g)) gates) as (t3 & E3 & H3).
  { intros t0 n0 l p Hl Hs. destruct (loaded_policy t0 n0 l p Hl Hs) as (t' & -> & H' & _). eauto. }
  { exact H2. }
  { rewrite Ms. exact Sd. }
  exists t3. split; [exact E3|]. rewrite Ms, <- app_assoc in H3. exact H3.
Qed.
Lemma loaded_init : forall ep items n, (exists path ln work, In (path, ln, n, work) items) -> n <> "" ->
  loaded_at (load_items (activate ep : tracker) items) n [] /\ t_ep (load_items (activate ep : tracker) items) = ep.
Proof using.
  intros ep items n Hn Nn.
  assert (G : forall its (t : tracker), t_of t = [] -> t_of (load_items t its) = [] /\ t_ep (load_items t its) = t_ep t /\ (item_at t n = true \/ (exists path ln work, In (path, ln, n, work) its) -> item_at (load_items t its) n = true)).
  { clear Hn. induction its as [|[[[path ln] name] work] its IH]; intros t Ht; unfold load_items; cbn [fold_left].
    - split; [exact Ht|]. split; [reflexivity|]. intros [H|(a & b & c & [])]. exact H.
    - match goal with |- context [fold_left _ its ?t'] => change (fold_left _ its t') with (load_items t' its) end.
      assert (Ha : t_of (add_item t path ln name work) = []) by (unfold add_item; destruct (String.eqb name ""); exact Ht).
      destruct (IH (add_item t path ln name work) Ha) as (I1 & I2 & I3). split; [exact I1|]. split; [rewrite I2; unfold add_item; destruct (String.eqb name ""); reflexivity|].
      intros [H|(a & b & c & [H|H])]; apply I3; [left; apply item_kept; exact H| |right; eauto].
      injection H as -> -> -> ->. left. unfold add_item, item_at. destruct (String.eqb_spec n ""); [congruence|]. cbn [set_items t_items]. rewrite dget_dput, String.eqb_refl. reflexivity. }
  destruct (G items (activate ep) eq_refl) as (G1 & G2 & G3). split; [|rewrite G2; reflexivity].
  assert (N : dget (t_of (load_items (activate ep : tracker) items)) n = None) by (rewrite G1; reflexivity).
  constructor.
  - apply G3. right. exact Hn.
  - unfold known. rewrite N. reflexivity.
  - intros z. unfold all_at. rewrite N. split; [intros []|intros (p & [] & _)].
  - intros ing. unfold map_at. rewrite N. split; [intros _ p []|reflexivity].
  - intros ing k z. unfold map_at. rewrite N. split; [intros []|intros (p & [] & _)].
Qed.

(** ** Default policies *)
(** What a step that only adds defaults keeps of the node [n]. *)
Record keeps (t t' : tracker) (n : string) : Prop := Keeps {
  k_item : item_at t' n = true;
  k_entry : dget (t_items t') n = dget (t_items t) n;
  k_ep : t_ep t' = t_ep t;
  k_known : known t n = true -> known t' n = true;
  k_all : forall z, In z (all_at t n) -> In z (all_at t' n);
  k_new : forall z, In z (all_at t' n) -> z = default_policy \/ In z (all_at t n);
  k_map : forall ing, map_at t ing n <> [] -> map_at t' ing n = map_at t ing n }.
Lemma keeps_refl : forall (t : tracker) n, item_at t n = true -> keeps t t n.
Proof using. intros t n H. constructor; auto. Qed.
Lemma keeps_trans : forall (t1 t2 t3 : tracker) n, keeps t1 t2 n -> keeps t2 t3 n -> keeps t1 t3 n.
Proof using.
  intros t1 t2 t3 n [A1 A2 A3 A4 A5 A6 A7] [B1 B2 B3 B4 B5 B6 B7]. constructor; auto; try congruence.
  - intros z H. destruct (B6 z H) as [->|H']; auto.
  - intros ing H. rewrite B7; [apply A7; exact H|]. rewrite A7; exact H.
Qed.
Lemma default_step : forall (t : tracker) src dst d n, item_at t n = true ->
  let t' := add_default_policy fname t src dst d in
  keeps t t' n /\ t_peers t' = t_peers t /\ t_conns t' = t_conns t /\ t_items t' = t_items t /\
  map_at t' (negb d) n = map_at t (negb d) n /\
  (hit (if d then dst else src) n = false -> dget (t_of t') n = dget (t_of t) n) /\
  (hit (if d then dst else src) n = true -> map_at t d n = [] -> known t' n = true /\ In default_policy (all_at t' n) /\
     forall k z, In z (get0 (map_at t' d n) k) <-> hit (if d then src else dst) k = true /\ z = default_policy).
Proof using.
  intros t src dst d n Hi. cbv zeta. unfold add_default_policy.
  change (if d return list peer then dst else src) with (if d return peerset then dst else src). generalize (if d return peerset then dst else src) as nodes. intros nodes. revert t Hi.
  induction nodes as [|q nodes IH]; intros t Hi; cbn [fold_left hit existsb].
  - split; [apply keeps_refl; exact Hi|]. do 4 (split; [reflexivity|]). split; [reflexivity|discriminate].
  - fold (hit nodes n). set (t1 := if policy_list_empty t (fname q) d then _ else t).
    assert (S : keeps t t1 n /\ t_peers t1 = t_peers t /\ t_conns t1 = t_conns t /\ t_items t1 = t_items t /\ map_at t1 (negb d) n = map_at t (negb d) n /\
                (fname q <> n -> dget (t_of t1) n = dget (t_of t) n) /\
                (fname q = n -> map_at t d n = [] -> known t1 n = true /\ In default_policy (all_at t1 n) /\
                   forall k z, In z (get0 (map_at t1 d n) k) <-> hit (if d then src else dst) k = true /\ z = default_policy)).
    { unfold t1. clear IH t1. destruct (policy_list_empty t (fname q) d) eqn:Em.
      2:{ split; [apply keeps_refl; exact Hi|]. do 4 (split; [reflexivity|]). split; [reflexivity|]. intros Eq Mn. exfalso. revert Em. unfold policy_list_empty. rewrite Eq.
          unfold map_at in Mn. destruct (dget (t_of t) n) as [a|]; [rewrite Mn|]; discriminate. }
      pose proof (peer_policy_spec t (fname q) default_policy (if d then [] else dst) (if d then src else []) n Hi) as S. cbv zeta in S. destruct S as (S1 & S2 & S3 & S4 & S5 & S6).
      set (t1 := add_peer_policy fname t (fname q) default_policy _ _) in *. clearbody t1. unfold policy_list_empty in Em.
      destruct (String.eqb_spec (fname q) n) as [Eq|Ne].
      - clear S5. destruct (S6 Eq) as (K1 & K2 & K3). rewrite Eq in Em.
        assert (Mn : map_at t d n = []) by (unfold map_at; destruct (dget (t_of t) n) as [a|]; [destruct (of_dir d a); [reflexivity|discriminate]|reflexivity]).
        assert (Mo : map_at t1 (negb d) n = map_at t (negb d) n) by (destruct (K3 (negb d)) as (_ & U & _); apply U; destruct d; reflexivity).
        split; [constructor|].
        + unfold item_at. rewrite S1. exact Hi.
        + rewrite S1. reflexivity.
        + exact S4.
        + auto.
        + intros z Hz. apply K2. auto.
        + intros z Hz. apply K2 in Hz. exact Hz.
        + intros ing Hm. destruct (Bool.bool_dec ing d) as [->|Nd]; [congruence|]. replace ing with (negb d) by (destruct ing, d; cbn; congruence). exact Mo.
        + split; [exact S3|]. split; [exact S2|]. split; [exact S1|]. split; [exact Mo|]. split; [congruence|]. intros _ _. split; [exact K1|]. split; [apply K2; auto|].
          intros k z. destruct (K3 d) as (_ & _ & U). rewrite U, Mn. replace (if d then if d then src else [] else if d then [] else dst) with (if d then src else dst) by (destruct d; reflexivity).
          cbn [get0 dget find option_map In]. destruct (hit (if d then src else dst) k); intuition discriminate.
      - specialize (S5 Ne). clear S6. split.
        + constructor; unfold item_at, known, all_at, map_at; rewrite ?S1, ?S5; auto.
        + split; [exact S3|]. split; [exact S2|]. split; [exact S1|]. split; [unfold map_at; rewrite S5; reflexivity|]. split; [auto|congruence]. }
    clearbody t1. destruct S as (K & P1 & P2 & P3 & P4 & P5 & P6). destruct (IH t1 (k_item _ _ _ K)) as (K' & Q1 & Q2 & Q3 & Q4 & Q5 & Q6). clear IH.
    split; [eapply keeps_trans; eassumption|]. split; [congruence|]. split; [congruence|]. split; [congruence|]. split; [congruence|]. split.
    + intros Hh. apply orb_false_iff in Hh as [H1 H2]. apply String.eqb_neq in H1. rewrite Q5, P5; auto.
    + intros Hh Mn. destruct (String.eqb_spec (fname q) n) as [Eq|Ne].
      * destruct (P6 Eq Mn) as (R1 & R2 & R3). split; [apply (k_known _ _ _ K'); exact R1|]. split; [apply (k_all _ _ _ K'); exact R2|].
        destruct (map_at t1 d n) as [|e m] eqn:Em.
        -- assert (Z : forall k, hit (if d then src else dst) k = false).
           { intros k. destruct (hit (if d then src else dst) k) eqn:E; [|reflexivity]. exfalso. apply (proj2 (R3 k default_policy)). auto. }
           destruct (hit nodes n) eqn:En; [apply Q6; reflexivity|].
           intros k z. unfold map_at. rewrite (Q5 eq_refl). change (match dget (t_of t1) n with Some a => of_dir d a | None => [] end) with (map_at t1 d n). rewrite Em. apply R3.
        -- intros k z. rewrite (k_map _ _ _ K' d) by (rewrite Em; discriminate). rewrite Em. apply R3.
      * assert (X : map_at t1 d n = map_at t d n) by (unfold map_at; rewrite (P5 Ne); reflexivity). apply Q6; [exact Hh|congruence].
Qed.

(** ** The end of the query *)
Lemma connections_step : forall (t : tracker) x peers n, item_at t n = true ->
  let t' := set_connections_and_peers fname t x peers in
  t_conns t' = Some x /\ t_peers t' = peers /\ t_ep t' = t_ep t /\ dget (t_items t') n = dget (t_items t) n /\
  (known t n = true -> dget (t_of t') n = dget (t_of t) n) /\
  (known t n = false -> hit peers n = true -> known t' n = true /\ forall z, In z (all_at t' n) <-> z = default_policy).
Proof using.
  intros t x peers n Hi. cbv zeta. unfold set_connections_and_peers.
  set (f := fun (t : tracker) p => match dget (t_of t) (fname p) with Some _ => t | None => _ end).
  assert (G : forall qs (t : tracker), item_at t n = true ->
    let t' := fold_left f qs t in
    t_conns t' = t_conns t /\ t_peers t' = t_peers t /\ t_ep t' = t_ep t /\ dget (t_items t') n = dget (t_items t) n /\
    (known t n = true -> dget (t_of t') n = dget (t_of t) n) /\
    (known t n = false -> hit qs n = true -> known t' n = true /\ forall z, In z (all_at t' n) <-> z = default_policy)).
  { clear Hi t. induction qs as [|q qs IH]; intros t Hi; cbn [fold_left hit existsb]; [do 5 (split; [reflexivity|]); discriminate|]. fold (hit qs n).
    assert (S : t_conns (f t q) = t_conns t /\ t_peers (f t q) = t_peers t /\ t_ep (f t q) = t_ep t /\ dget (t_items (f t q)) n = dget (t_items t) n /\
                (known t n = true \/ fname q <> n -> dget (t_of (f t q)) n = dget (t_of t) n) /\
                (known t n = false -> fname q = n -> known (f t q) n = true /\ forall z, In z (all_at (f t q) n) <-> z = default_policy)).
    { unfold f. destruct (dget (t_of t) (fname q)) as [a|] eqn:Eq.
      - do 5 (split; [reflexivity|]). intros Kn E. exfalso. unfold known in Kn. rewrite E in Eq. rewrite Eq in Kn. discriminate.
      - set (t0 := match dget (t_items t) (fname q) with Some _ => t | None => add_item t "" 0 (fname q) "" end).
        assert (T0 : t_conns t0 = t_conns t /\ t_peers t0 = t_peers t /\ t_ep t0 = t_ep t /\ t_of t0 = t_of t /\ dget (t_items t0) n = dget (t_items t) n).
        { unfold t0. destruct (dget (t_items t) (fname q)) as [e|] eqn:Ei; [auto|]. unfold add_item. destruct (String.eqb (fname q) ""); [auto|]. cbn [set_items t_conns t_peers t_ep t_of t_items].
          do 4 (split; [reflexivity|]). rewrite dget_dput. destruct (String.eqb_spec (fname q) n) as [E|N]; [|reflexivity]. unfold item_at in Hi. rewrite <- E, Ei in Hi. discriminate. }
        destruct T0 as (A1 & A2 & A3 & A4 & A5). clearbody t0. assert (I0 : item_at t0 n = true) by (unfold item_at; rewrite A5; exact Hi).
        pose proof (default_step t0 [q] peers false n I0) as D1. cbv zeta in D1. destruct D1 as (K1 & P1 & P2 & P3 & P4 & P5 & P6). set (t1 := add_default_policy fname t0 [q] peers false) in *. clearbody t1.
        pose proof (default_step t1 peers [q] true n (k_item _ _ _ K1)) as D2. cbv zeta in D2. destruct D2 as (K2 & Q1 & Q2 & Q3 & Q4 & Q5 & Q6). set (t2 := add_default_policy fname t1 peers [q] true) in *. clearbody t2.
        split; [congruence|]. split; [congruence|]. split; [rewrite (k_ep _ _ _ K2), (k_ep _ _ _ K1); exact A3|]. split; [congruence|].
        assert (Hq : hit [q] n = String.eqb (fname q) n) by (cbn [hit existsb]; apply orb_false_r). cbn [hit existsb] in *. rewrite orb_false_r in *. split.
        + intros H. assert (Ne : fname q <> n).
          { destruct H as [H|H]; [|exact H]. intros E. unfold known in H. rewrite <- E, Eq in H. discriminate. }
          rewrite Q5, P5 by (apply String.eqb_neq; exact Ne). rewrite A4. reflexivity.
        + intros Kn E. assert (Eb : String.eqb (fname q) n = true) by (apply String.eqb_eq; exact E).
          assert (N0 : dget (t_of t0) n = None) by (rewrite A4, <- E; exact Eq).
          assert (M0 : forall ing, map_at t0 ing n = []) by (intros ing; unfold map_at; rewrite N0; reflexivity). assert (L0 : all_at t0 n = []) by (unfold all_at; rewrite N0; reflexivity).
          destruct (P6 Eb (M0 false)) as (R1 & R2 & _). split; [apply (k_known _ _ _ K2); exact R1|]. intros z. split.
          * intros Hz. destruct (k_new _ _ _ K2 z Hz) as [Hd|Hz1]; [exact Hd|]. destruct (k_new _ _ _ K1 z Hz1) as [Hd|Hz0]; [exact Hd|]. rewrite L0 in Hz0. destruct Hz0.
          * intros ->. apply (k_all _ _ _ K2). exact R2. }
    set (t1 := f t q) in *. clearbody t1. destruct S as (S1 & S2 & S3 & S4 & S5 & S6). assert (I1 : item_at t1 n = true) by (unfold item_at; rewrite S4; exact Hi).
    destruct (IH t1 I1) as (T1 & T2 & T3 & T4 & T5 & T6). cbv zeta in *. clear IH. split; [congruence|]. split; [congruence|]. split; [congruence|]. split; [congruence|]. split.
    - intros Kn. specialize (S5 (or_introl Kn)). rewrite T5; [exact S5|]. unfold known. rewrite S5. exact Kn.
    - intros Kn Hh. destruct (String.eqb_spec (fname q) n) as [E|Ne].
      + destruct (S6 Kn E) as [U1 U2]. unfold known, all_at in *. rewrite (T5 U1). auto.
      + specialize (S5 (or_intror Ne)). apply T6; [unfold known; rewrite S5; exact Kn|exact Hh]. }
  apply (G peers (Tracker (t_items t) (t_of t) (Some x) peers (t_ep t))). exact Hi.
Qed.
End Tracker.
