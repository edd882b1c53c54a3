(** * The tracker after loading and the connectivity query: what it knows of two peers. *)
From Coq Require Import ZArith List Bool Arith Lia String Ascii Permutation.
From Verif Require Import MinDfaModel ConnTextModel IntervalModel TextModel PortProtoModel GraphModel GraphFacts PeerModel PeerFacts PeerSetFacts PolicyModel PolicyLaws PolicyFacts LayerFacts
                          OrderFacts QueryModel QueryFacts QuerySpecs QueryOne YamlModel ClusterModel MapModel MapFacts ExplModel ExplFacts ExplLayers.
Import ListNotations.
Local Open Scope string_scope.
Local Open Scope list_scope.
Local Open Scope nat_scope.

Section Run.
Context {C Pt : Type} (A : cops C) (Q : qops C) (src dst : Pt -> point) (tcp : Pt -> bool) (space : Pt -> Prop)
        (cmem : Pt -> C -> Prop) (cok : C -> Prop) (csafe : C -> C -> Prop) (vis : list peer) (put : Pt -> Pt -> Pt)
        (L : claws A src dst tcp space cmem cok csafe vis) (QL : qlaws A Q src dst tcp space cmem cok csafe vis put)
        (NB : forall p, In p vis -> is_block p = false).
Context (ends : C -> option (list (peerset * peerset))) (fname : peer -> string).
Context (EL : ends_law src dst space cmem cok vis ends).
Context (FN : forall k n q, In (Named k n) vis -> (is_block q = true \/ In q vis) -> fname q = fname (Named k n) -> q = Named k n).
Context (cl : cluster) (owner workload : peer -> string).
Local Notation law f := (f _ _ _ _ _ _ _ _ _ L).
Local Notation qlaw f := (f _ _ _ _ _ _ _ _ _ _ _ QL).
Local Notation tracker := (@tracker C).
Local Notation policy := (@policy C).
Local Notation config := (@config C).
Local Notation says := (policy_says cmem).
Local Notation here := (here src dst).
Local Notation there := (there src dst).
Local Notation proj := (proj A ends).

Lemma captured_selected : forall (p : policy) d, policy_captured p d = [] \/ policy_captured p d = p_selected p.
Proof using. intros p d. unfold policy_captured. destruct (class_of (p_kind p)), d; try destruct (p_affects_in p); try destruct (p_affects_eg p); auto. Qed.
Lemma allow_allowed : forall (p : policy) d, allow_props A p d = allowed (policy_conns A p d).
Proof using. intros p d. unfold allow_props, policy_conns. destruct (sync_props A p d) as [[al dn] pa]. reflexivity. Qed.

Section Config.
Context (g : config) (G : cfg_ok A src dst space cmem cok csafe vis g) (St : settled A space cmem g) (Iv : inv (g_pols g)).
Context (docs : list (@doc C)) (gates : list (policy * string * Z)) (sidecars : list policy).
Context (LD : forall p, In p (all_loaded docs gates sidecars) <-> In p (policy_list g)).
Context (PO : forall p, In p (policy_list g) -> policy_ok cok vis p /\ forall d, policy_safe A csafe d p).
Context (NP : forall p d pt, In p (policy_list g) -> space pt -> ~ says d pt p Pass).
Context (ND : forall p, In p (policy_list g) -> p_name p <> default_policy).
Let HC : container vis (g_peers g) := proj1 G.

Lemma props_spec : forall p d, In p (policy_list g) -> cok (allow_props A p d) /\ forall pt, space pt -> (cmem pt (allow_props A p d) <-> says d pt p Allow).
Proof using L PO.
  intros p d Hp. destruct (PO p Hp) as [P S]. rewrite allow_allowed. destruct (policy_conns_spec A src dst tcp space cmem cok csafe vis L d p P (S d)) as (_ & _ & (K & _) & _ & M).
  split; [exact K|]. intros pt Sp. apply M. exact Sp.
Qed.
Lemma sound_loaded : sound A ends (all_loaded docs gates sidecars).
Proof using L EL LD PO ND.
  intros p Hp. apply LD in Hp. split; [|apply ND; exact Hp]. intros d. apply (sides_spec src dst space cmem cok vis ends EL). apply props_spec. exact Hp.
Qed.
Lemma proj_hit : forall p d ky ny, In p (policy_list g) -> In (Named ky ny) vis ->
  (hit fname (proj p d) (fname (Named ky ny)) = true <-> exists pt, space pt /\ says d pt p Allow /\ there d pt = PN ky ny).
Proof using L EL FN PO.
  intros p d ky ny Hp V. destruct (props_spec p d Hp) as [K M].
  pose proof (side_there src dst space cmem cok vis ends fname EL FN d (allow_props A p d) ky ny K V) as S.
  assert (E : proj p d = if d then fst (sides ends (allow_props A p d)) else snd (sides ends (allow_props A p d))) by (unfold ExplFacts.proj; destruct d; reflexivity).
  rewrite E, S. split; intros (pt & Sp & Hm & Ht); exists pt; (split; [exact Sp|]); (split; [apply M; assumption|exact Ht]).
Qed.
Lemma proj_or : forall p d, In p (policy_list g) -> (exists pt, space pt /\ says d pt p Allow) \/ (proj p d = [] /\ forall pt, space pt -> ~ says d pt p Allow).
Proof using L EL PO.
  intros p d Hp. destruct (props_spec p d Hp) as [K M]. destruct (c_bool A (allow_props A p d)) eqn:E.
  - left. apply (law l_bool _ K) in E as (pt & Sp & Hm). exists pt. split; [exact Sp|]. apply M; assumption.
  - right. assert (Z : forall pt, space pt -> ~ cmem pt (allow_props A p d)).
    { intros pt Sp Hm. assert (X : c_bool A (allow_props A p d) = true) by (apply (law l_bool _ K); eauto). congruence. }
    destruct (sides_spec src dst space cmem cok vis ends EL _ K) as (_ & _ & _ & _ & S1 & S2). split; [unfold ExplFacts.proj; destruct d; [apply S1|apply S2]; exact Z|].
    intros pt Sp Hs. apply (Z pt Sp). apply M; assumption.
Qed.
(** The layers that were looked at. *)
Lemma tracked_in : forall n pols, In (n, pols) (tracked_layers g) -> In (n, pols) (lays (g_pols g)) \/ (n, pols) = (LK8sCalico, []).
Proof using.
  intros n pols H. unfold tracked_layers in H. apply in_app_or in H as [H|H]; [|auto]. destruct (pbool _); [|destruct H]. destruct (lget _ _); [destruct H|]. destruct H as [H|[]]. auto.
Qed.
Lemma tracked_ok : forall n pols, In (n, pols) (tracked_layers g) -> layer_ok A cok csafe vis n true pols /\ layer_ok A cok csafe vis n false pols.
Proof using G.
  intros n pols H. apply tracked_in in H as [H|H]; [apply (proj1 (proj2 G)); exact H|]. injection H as -> ->. split; apply layer_ok_nil.
Qed.
Lemma tracked_ne : tracked_layers g <> [].
Proof using Iv.
  unfold tracked_layers. intros E. apply app_eq_nil in E as [_ E]. destruct (inv_present _ Iv) as (p & n & Hp & Hn).
  - rewrite E. reflexivity.
  - pose proof (inv_lists _ Iv n) as P. unfold layer_list in P. rewrite E in P. cbn [lget find option_map] in P. apply Permutation_nil in P.
    assert (X : In p (filter (of_layer n) (map snd (policies (g_pols g))))) by (apply filter_In; auto). rewrite P in X. exact X.
Qed.
Lemma in_layer : forall p d pt, In p (policy_list g) -> says d pt p Allow -> exists n pols, In (n, pols) (lays (g_pols g)) /\ In p pols.
Proof using Iv.
  intros p d pt Hp Hs. assert (Ln : exists n, of_layer n p = true).
  { unfold of_layer. unfold policy_says in Hs. destruct (p_kind p) eqn:E; cbn [class_of layer_of_type] in *; try (destruct Hs; fail); eexists; apply lname_eqb_eq; reflexivity. }
  destruct Ln as (n & Hn). pose proof (inv_lists _ Iv n) as P. assert (X : In p (layer_list (g_pols g) n)).
  { apply (Permutation_in p (Permutation_sym P)). apply filter_In. auto. }
  unfold layer_list in X. destruct (lget (lays (g_pols g)) n) as [pols|] eqn:E; [|destruct X]. exists n, pols. split; [|exact X]. apply lget_In; [apply (inv_layers _ Iv)|exact E].
Qed.
Lemma tracked_allows : forall pt, space pt -> allows A cmem g pt -> forall n pols, In (n, pols) (tracked_layers g) -> layer_allows src dst tcp cmem (g_peers g) n pols pt.
Proof using L G.
  intros pt Sp Al n pols H. destruct (config_all_spec A src dst tcp space cmem cok csafe vis L (g_peers g) HC (lays (g_pols g)) (proj1 (proj2 G))) as [_ M]. apply (M pt Sp) in Al as [A1 A2].
  unfold tracked_layers in H. apply in_app_or in H as [H|H]; [|apply A2; exact H]. destruct (pbool _); [|destruct H]. destruct (lget _ _); [destruct H|]. destruct H as [H|[]]. injection H as <- <-. exact A1.
Qed.
Lemma allows_tracked : forall pt, space pt -> anywhere (g_peers g) (src pt) -> anywhere (g_peers g) (dst pt) ->
  (forall n pols, In (n, pols) (tracked_layers g) -> layer_allows src dst tcp cmem (g_peers g) n pols pt) -> allows A cmem g pt.
Proof using L G.
  intros pt Sp H1 H2 H. destruct (config_all_spec A src dst tcp space cmem cok csafe vis L (g_peers g) HC (lays (g_pols g)) (proj1 (proj2 G))) as [_ M]. apply (M pt Sp). unfold tracked_layers in H.
  split; [|intros n pols Hn; apply H; apply in_or_app; auto]. destruct (pbool _); [|auto]. destruct (lget _ _); [auto|]. apply H. left. reflexivity.
Qed.

(** Policies that allow connections of the node in a direction are heeded in it, and allow the same for all endpoints they select. *)
Definition heeded (d : bool) (k : nat) (n : string) : Prop := forall p pt, In p (policy_list g) -> pt_in (PN k n) (p_selected p) -> space pt -> says d pt p Allow -> policy_captured p d <> [].
Definition even (d : bool) (k : nat) (n : string) : Prop := forall p pt, In p (policy_list g) -> pt_in (PN k n) (p_selected p) -> space pt -> says d pt p Allow ->
  exists pt', space pt' /\ says d pt' p Allow /\ here d pt' = PN k n /\ there d pt' = there d pt.

Section Node.
Context (kx : nat) (nx : string) (HX : In (Named kx nx) (g_peers g)).
Let X := PN kx nx.
Let N := fname (Named kx nx).
Let VX : In (Named kx nx) vis := proj1 (HC _ HX).
Local Notation selected p := (pt_in X (p_selected p)).
Local Notation meets := (meets src dst space vis kx nx).
Lemma chosen_selected : forall p, In p (policy_list g) -> (chosen_by fname p N = true <-> selected p).
Proof using FN PO HX G.
  intros p Hp. destruct (PO p Hp) as [(_ & _ & P) _]. apply hit_pt with (vis := vis); auto.
Qed.
(** An explicit permission is one of a policy of the configuration that selects the node. *)
Lemma explicit_policy : forall n pols d pt, In (n, pols) (tracked_layers g) -> space pt -> here d pt = X -> dir_explicit src dst cmem (g_peers g) n pols d pt ->
  exists p, In p (policy_list g) /\ selected p /\ says d pt p Allow.
Proof using NP G Iv.
  intros n pols d pt Hl Sp Hh E. apply tracked_in in Hl.
  assert (IP : forall p, In p pols -> In p (policy_list g)).
  { intros p Hp. destruct Hl as [Hl|Hl]; [apply (layer_policy g n pols p Iv Hl Hp)|]. injection Hl as -> ->. destruct Hp. }
  assert (F : forall a, first_says (decides cmem d pt) pols a -> exists p, In p pols /\ decides cmem d pt p a).
  { intros a (pre & p & post & -> & Hd & _). exists p. split; [apply in_or_app; right; left; reflexivity|exact Hd]. }
  assert (E' : first_says (decides cmem d pt) pols Allow).
  { destruct n; cbn [dir_explicit] in E; [|exact E| |exact E]; (destruct E as [E|(E & _)]; [exact E|]); apply F in E as (p & Hp & _ & Hs); destruct (NP p d pt (IP p Hp) Sp Hs). }
  apply F in E' as (p & Hp & Hd). exists p. split; [apply IP; exact Hp|]. split; [|exact (proj2 Hd)].
  destruct Hl as [Hl|Hl]; [|injection Hl as -> ->; destruct Hp]. destruct (proj2 (proj2 G) n pols Hl p d pt Allow Hp Sp Hd) as [Hc _]. rewrite Hh in Hc.
  destruct (captured_selected p d) as [E0|E0]; rewrite E0 in Hc; [destruct (pt_nil _ Hc)|exact Hc].
Qed.
Lemma allowed_side : forall n pols d pt, layer_allows src dst tcp cmem (g_peers g) n pols pt -> here d pt = X ->
  dir_explicit src dst cmem (g_peers g) n pols d pt \/ dir_default src dst tcp cmem (g_peers g) n pols d pt.
Proof using.
  intros n pols d pt [Hi Ho] Hh. destruct d; cbn [LayerFacts.here] in Hh.
  - destruct Hi as [H|[H|(_ & H)]]; auto. rewrite Hh in H. destruct H.
  - destruct Ho as [H|[H|(H & _)]]; auto. rewrite Hh in H. destruct H.
Qed.
(** The policies that explain what is allowed at this side, and the default otherwise. *)
Definition explains (d : bool) (ky : nat) (ny : string) (z : string) : Prop :=
  (exists p, In p (policy_list g) /\ selected p /\ p_name p = z /\ exists pt, space pt /\ here d pt = X /\ there d pt = PN ky ny /\ says d pt p Allow) \/
  (z = default_policy /\ forall p pt, In p (policy_list g) -> selected p -> space pt -> here d pt = X -> ~ says d pt p Allow).
Lemma side_lists : forall (t : tracker) d pt ky ny, heeded d kx nx -> even d kx nx -> loaded_at A ends fname t N (all_loaded docs gates sidecars) -> meets d pt ky ny ->
  allows A cmem g pt -> (istio_layers (lays (g_pols g)) = true -> tcp pt = true) ->
  exists t', foldM (track_layer A ends fname (g_peers g)) (tracked_layers g) t = Some t' /\ keeps t t' N /\ known t' N = true /\
    (forall z, In z (get0 (map_at t' d N) (fname (Named ky ny))) <-> explains d ky ny z) /\ exists z, explains d ky ny z.
Proof using L EL FN G Iv LD PO NP HX.
  intros t d pt ky ny HE EV Ld Me Al Tc. pose proof Me as (Sp & Hh & Ht & Vy).
  destruct (track_layers_spec A src dst tcp space cmem cok csafe vis L ends fname EL FN (g_peers g) HC kx nx VX (tracked_layers g) t tracked_ok (la_item _ _ _ _ _ _ Ld)) as (t' & E & K & D).
  change (fname (Named kx nx)) with N in K. exists t'. split; [exact E|]. split; [exact K|].
  assert (Sd : forall n pols, In (n, pols) (tracked_layers g) -> dir_explicit src dst cmem (g_peers g) n pols d pt \/ dir_default src dst tcp cmem (g_peers g) n pols d pt).
  { intros n pols Hl. apply allowed_side; [|exact Hh]. apply tracked_allows; assumption. }
  destruct (existsb (fun p => chosen_by fname p N && c_bool A (allow_props A p d)) (all_loaded docs gates sidecars)) eqn:Ex.
  - apply existsb_exists in Ex as (p0 & Hp & B). apply andb_true_iff in B as [B1 B2]. apply LD in Hp. apply chosen_selected in B1; [|exact Hp].
    destruct (props_spec p0 d Hp) as [K0 M0]. apply (law l_bool _ K0) in B2 as (pt0 & Sp0 & Hm). apply M0 in Hm; [|exact Sp0].
    destruct (EV p0 pt0 Hp B1 Sp0 Hm) as (pt1 & Sp1 & Hs1 & Hh1 & Ht1). pose proof (HE p0 pt1 Hp B1 Sp1 Hs1) as Cp.
    assert (Pp : exists p1, In p1 (policy_list g) /\ selected p1 /\ says d pt p1 Allow).
    { destruct (in_layer p0 d pt1 Hp Hs1) as (n & pols & Hl & Hin). assert (Hl' : In (n, pols) (tracked_layers g)) by (unfold tracked_layers; apply in_or_app; auto).
      destruct (Sd n pols Hl') as [He|Hd]; [eapply explicit_policy; eassumption|]. exfalso.
      assert (Hc : pt_in X (policy_captured p0 d)) by (destruct (captured_selected p0 d) as [E0|E0]; [congruence|rewrite E0; exact B1]).
      assert (Cany : captured_by any_policy pols d (here d pt)) by (exists p0; rewrite Hh; auto).
      assert (Cist : captured_by istio_capf pols d (here d pt)).
      { exists p0. rewrite Hh. split; [exact Hin|]. split; [|exact Hc]. unfold istio_capf. unfold policy_says in Hs1. destruct (p_kind p0); cbn [class_of] in Hs1; auto.
        - destruct Hs1 as (_ & <- & _). reflexivity.
        - destruct Hs1 as (<- & _). reflexivity. }
      assert (Ti : n = LIstio \/ n = LIstioGateway -> tcp pt = true).
      { intros Hn. apply Tc. unfold istio_layers. apply existsb_exists. exists (n, pols). split; [exact Hl|]. cbn [fst]. apply orb_true_iff. destruct Hn as [-> | ->]; auto. }
      assert (No : (n = LIstio \/ n = LIstioGateway) -> istio_default src dst tcp cmem (g_peers g) pols d pt -> False).
      { intros Hn [(T & _)|(_ & H)]; [rewrite (Ti Hn) in T; discriminate|]. destruct d; cbn [LayerFacts.here] in Cist; tauto. }
      destruct n; cbn [dir_default] in Hd; [destruct Hd as (_ & _ & Hd & _); exact (Hd Cany)|apply No; auto|destruct Hd as (_ & _ & Hd & _); exact (Hd Cany)|apply No; auto]. }
    destruct Pp as (p1 & Hp1 & Sel1 & Hs). 
    assert (Ne : map_at t d N <> []).
    { intros E0. pose proof (proj1 (la_nil _ _ _ _ _ _ Ld d) E0 p0) as Z. rewrite LD in Z. specialize (Z Hp (proj2 (chosen_selected p0 Hp) B1)).
      assert (Zk : extractable ends (allow_props A p0 d)) by (apply (sides_spec src dst space cmem cok vis ends EL); exact K0).
      destruct (sides_spec src dst space cmem cok vis ends EL _ K0) as (_ & _ & _ & _ & S1 & S2). unfold ExplFacts.proj in Z.
      destruct d; [apply (proj1 S1 Z pt0 Sp0)|apply (proj1 S2 Z pt0 Sp0)]; apply M0; assumption. }
    split; [unfold known; pose proof (k_map _ _ _ K d Ne) as Z; fold N in Z; unfold map_at in Z at 1; destruct (dget (t_of t') N); [reflexivity|]; exfalso; apply Ne; symmetry; exact Z|].
    split.
    + intros z. rewrite (k_map _ _ _ K d Ne), (la_list _ _ _ _ _ _ Ld d). unfold explains. split.
      * intros (p & Hl & Hc & Hh' & ->). apply LD in Hl. apply chosen_selected in Hc; [|exact Hl]. apply proj_hit in Hh'; auto. destruct Hh' as (pt2 & Sp2 & Hs2 & Ht2). left. exists p. split; [exact Hl|]. split; [exact Hc|]. split; [reflexivity|].
        destruct (EV p pt2 Hl Hc Sp2 Hs2) as (pt3 & Sp3 & Hs3 & Hh3 & Ht3). exists pt3. split; [exact Sp3|]. split; [exact Hh3|]. split; [congruence|exact Hs3].
      * intros [(p & Hl & Hc & <- & pt2 & Sp2 & Hh2 & Ht2 & Hs2)|(-> & Z)].
        -- exists p. split; [apply LD; exact Hl|]. split; [apply chosen_selected; auto|]. split; [|reflexivity]. apply proj_hit; auto. exists pt2. auto.
        -- exfalso. exact (Z p0 pt1 Hp B1 Sp1 Hh1 Hs1).
    + exists (p_name p1). left. exists p1. split; [exact Hp1|]. split; [exact Sel1|]. split; [reflexivity|]. exists pt. auto.
  - assert (Z : forall p pt0, In p (policy_list g) -> selected p -> space pt0 -> ~ says d pt0 p Allow).
    { intros p pt0 Hp Hc Sp0 Hs. destruct (props_spec p d Hp) as [K0 M0]. assert (X0 : existsb (fun p => chosen_by fname p N && c_bool A (allow_props A p d)) (all_loaded docs gates sidecars) = true); [|congruence].
      apply existsb_exists. exists p. split; [apply LD; exact Hp|]. apply andb_true_iff. split; [apply chosen_selected; auto|]. apply (law l_bool _ K0). exists pt0. split; [exact Sp0|]. apply M0; assumption. }
    assert (E0 : map_at t d N = []).
    { apply (la_nil _ _ _ _ _ _ Ld d). intros p Hl Hc. apply LD in Hl. apply chosen_selected in Hc; [|exact Hl]. destruct (proj_or p d Hl) as [(pt0 & Sp0 & Hs)|[H _]]; [destruct (Z p pt0 Hl Hc Sp0 Hs)|exact H]. }
    destruct (D d E0 pt ky ny Me tracked_ne) as [Kn Df].
    { intros n pols Hl. split.
      - destruct (tracked_in _ _ Hl) as [Hl'|Hl']; [|injection Hl' as -> ->; exact I].
        assert (Ti : n = LIstio \/ n = LIstioGateway -> tcp pt = true).
        { intros Hn. apply Tc. unfold istio_layers. apply existsb_exists. exists (n, pols). split; [exact Hl'|]. cbn [fst]. apply orb_true_iff. destruct Hn as [-> | ->]; auto. }
        destruct n; cbn [tcp_if]; auto.
      - destruct (Sd n pols Hl) as [He|Hd]; [|exact Hd]. exfalso. destruct (explicit_policy n pols d pt Hl Sp Hh He) as (p & Hp & Hc & Hs). exact (Z p pt Hp Hc Sp Hs). }
    change (fname (Named kx nx)) with N in Kn, Df. split; [exact Kn|]. split.
    + intros z. rewrite Df. unfold explains. split.
      * intros ->. right. split; [reflexivity|]. intros p pt0 Hp Hc Sp0 _. apply Z; assumption.
      * intros [(p & Hp & Hc & _ & pt2 & Sp2 & _ & _ & Hs2)|(-> & _)]; [destruct (Z p pt2 Hp Hc Sp2 Hs2)|reflexivity].
    + exists default_policy. right. split; [reflexivity|]. intros p pt0 Hp Hc Sp0 _. apply Z; assumption.
Qed.
End Node.

(** ** The whole run *)
Context (h6 : policy -> bool).
Lemma loaded_peers : forall (t : tracker) n l ps, loaded_at A ends fname t n l -> loaded_at A ends fname (set_peers t ps) n l.
Proof using. intros t n l ps [H1 H2 H3 H4 H5]. constructor; assumption. Qed.
Lemma expl_peers_spec : forall (t : tracker) flag s, exists ps, expl_peers A ends cl owner workload Q h6 t flag s g = Some ps /\ pok vis ps /\
  (forall pt, space pt -> cmem pt (fst (map_conns cl owner workload A Q h6 flag s g)) -> pt_in (src pt) ps /\ pt_in (dst pt) ps) /\
  (no_subset s = true -> forall k n, In (Named k n) (g_peers g) -> In (Named k n) ps).
Proof using L QL EL NB G St.
  intros t flag s. destruct (map_conns_spec cl owner workload A Q src dst tcp space cmem cok csafe vis put L QL NB h6 flag s g G St) as (_ & _ & _ & M & _).
  destruct (all_usable A Q src dst tcp space cmem cok csafe vis put L QL g G St) as (_ & K0 & W0 & S0). unfold expl_peers. cbv zeta.
  change (all_conns_of A g None) with (all_of A (g_peers g) (lays (g_pols g))). unfold QuerySpecs.allows in M. set (mc := fst (map_conns cl owner workload A Q h6 flag s g)) in *. clearbody mc.
  set (x0 := all_of A (g_peers g) (lays (g_pols g))) in *. clearbody x0.
  destruct (peers_group_spec vis (g_peers g) false true HC) as [PG1 PG2].
  assert (NG : NoDup (peers_group (g_peers g) false true)) by (apply fold_padd_nodup; constructor).
  set (ps0 := ps_union (peers_group (g_peers g) false true) (q_peers Q x0)).
  assert (Kp0 : pok vis ps0) by (apply pok_union; [exact PG1|apply (qlaw q_peers_ok); auto]).
  assert (N0 : NoDup ps0) by (apply union_nodup; exact NG).
  assert (G0 : forall k n, In (Named k n) (g_peers g) -> In (Named k n) ps0).
  { intros k n H. assert (X : pt_in (PN k n) ps0); [|exact X]. unfold ps0. apply union_In. left. apply PG2. left. split; [exact H|]. left. reflexivity. }
  assert (E0 : forall pt, space pt -> cmem pt x0 -> pt_in (src pt) ps0 /\ pt_in (dst pt) ps0).
  { intros pt Sp H. unfold ps0. rewrite !union_In. destruct (qlaw q_peers_ends x0 pt K0 Sp H). auto. }
  clearbody ps0. set (ex6 := excludes6 h6 flag g) in *. destruct (mask_spec vis ps0 Kp0) as [MK MM].
  set (ps := if ex6 then mask_peers ps0 else ps0). set (x1 := if ex6 then c_and A x0 (c_rect A (Some ps) (Some ps) None) else x0).
  assert (Kp : pok vis ps) by (unfold ps; destruct ex6; auto). assert (Np : NoDup ps) by (unfold ps; destruct ex6; auto using mask_nodup).
  assert (Mp : forall y, pt_in y ps <-> pt_in y ps0 /\ (ex6 = true -> ~ v6 y)).
  { intros y. unfold ps. destruct ex6; [rewrite MM; tauto|]. split; [|tauto]. intros H. split; auto. discriminate. }
  assert (Gp : forall k n, In (Named k n) (g_peers g) -> In (Named k n) ps).
  { intros k n H. assert (X : pt_in (PN k n) ps); [|exact X]. apply Mp. split; [apply G0; exact H|]. cbn [v6]. tauto. }
  assert (X1 : cok x1 /\ forall pt, space pt -> (cmem pt x1 <-> cmem pt x0 /\ (ex6 = true -> ~ v6 (src pt) /\ ~ v6 (dst pt)))).
  { unfold x1. destruct ex6 eqn:E6.
    - assert (R : cok (c_rect A (Some ps) (Some ps) None)) by (apply (law l_rect_ok); auto). split; [apply (law l_and_ok); auto|].
      intros pt Sp. rewrite (law l_and), (law l_rect) by (auto; cbn [opt]; auto). cbn [opt]. rewrite !Mp. specialize (E0 pt Sp). tauto.
    - split; auto. intros pt Sp. split; [|tauto]. intros H. split; auto. discriminate. }
  destruct X1 as (K1 & M1). clearbody x1.
  assert (Mx : forall pt, space pt -> cmem pt mc -> cmem pt x1 /\ (in_sub cl owner workload s (src pt) \/ in_sub cl owner workload s (dst pt))).
  { intros pt Sp H. apply M in H as (H1 & (_ & H2) & H3); [|exact Sp]. split; [apply M1; auto|exact H3]. }
  assert (E1 : forall pt, space pt -> cmem pt x1 -> pt_in (src pt) ps /\ pt_in (dst pt) ps).
  { intros pt Sp H. apply M1 in H as [H H6]; auto. destruct (E0 pt Sp H). rewrite !Mp. tauto. }
  clearbody ps. set (sub := compute_subset cl owner workload s ps).
  assert (Is : incl sub ps) by (intros p H; apply subset_In in H as [H _]; exact H).
  assert (Ks : pok vis sub).
  { destruct Kp as [P1 P2]. split; [intros l H; apply P1; apply Is; exact H|intros k n H; apply P2; apply Is; exact H]. }
  assert (NS : no_subset s = true -> sub = ps) by (intros H; unfold sub, compute_subset; rewrite H; reflexivity).
  destruct (Nat.eqb_spec (List.length sub) (List.length ps)) as [Eq|Ne].
  - exists sub. split; [reflexivity|]. split; [exact Ks|]. assert (J : incl ps sub) by (apply NoDup_length_incl; auto; [apply subset_nodup; exact Np|lia]).
    split; [|intros H k n Hk; apply J; apply Gp; exact Hk]. intros pt Sp H. destruct (Mx pt Sp H) as [H1 _]. destruct (E1 pt Sp H1) as [P1 P2].
    assert (JJ : forall y, pt_in y ps -> pt_in y sub) by (intros [k n|y] Hy; cbn [pt_in] in *; [apply J; exact Hy|destruct Hy as (l & Hl & Hm); exists l; auto]). auto.
  - assert (R1 : cok (c_rect A (Some sub) None None)) by (apply (law l_rect_ok); cbn [opt]; auto). assert (R2 : cok (c_rect A None (Some sub) None)) by (apply (law l_rect_ok); cbn [opt]; auto).
    set (r := c_or A (c_rect A (Some sub) None None) (c_rect A None (Some sub) None)). assert (R : cok r) by (apply (law l_or_ok); auto).
    assert (K2 : cok (c_and A x1 r)) by (apply (law l_and_ok); auto). destruct (sides_spec src dst space cmem cok vis ends EL _ K2) as (Ex & (P1 & P2) & S & D & _).
    rewrite (extract_sides ends t _ Ex). cbn [bind]. eexists. split; [reflexivity|]. split; [apply pok_union; assumption|]. split; [|intros H; rewrite (NS H) in Ne; congruence].
    intros pt Sp H. destruct (Mx pt Sp H) as [H1 H2]. destruct (E1 pt Sp H1) as [Q1 Q2].
    assert (Mr : cmem pt (c_and A x1 r)).
    { rewrite (law l_and) by auto. split; [exact H1|]. unfold r. rewrite (law l_or), !(law l_rect) by (auto; cbn [opt]; auto). cbn [opt]. destruct H2 as [H2|H2]; [left|right]; (split; [|split]); auto; apply subset_pt; auto. }
    split; apply union_In; [left; apply S|right; apply D]; exists pt; auto.
Qed.
Lemma expl_conns_spec : forall flag s, let x := expl_conns A cl owner workload Q h6 flag s g in cok x /\
  forall pt, space pt -> (cmem pt x <-> cmem pt (fst (map_conns cl owner workload A Q h6 flag s g)) /\ (istio_layers (lays (g_pols g)) = true -> tcp pt = true)).
Proof using L QL NB G St.
  intros flag s. cbv zeta. unfold expl_conns. destruct (map_conns_spec cl owner workload A Q src dst tcp space cmem cok csafe vis put L QL NB h6 flag s g G St) as (K & Sd & _).
  destruct (split_tcp_spec A src dst tcp space cmem cok csafe vis L _ K Sd) as (K1 & _ & Ms). destruct (istio_layers (lays (g_pols g))).
  - split; [exact K1|]. intros pt Sp. rewrite (proj1 (Ms pt Sp)). intuition auto.
  - split; [exact K|]. intros pt Sp. intuition discriminate.
Qed.

Context (ep : string) (items : list (string * Z * string * string)) (flag : bool) (s : subset) (Ep : ep <> "deployments").
Definition listed_item (n : string) : Prop := n <> "" /\ exists path ln work, In (path, ln, n, work) items.
Lemma load_keeps_ep : forall t tf, load A ends fname t docs gates sidecars = Some tf -> t_ep tf = t_ep t.
Proof using.
  assert (F : forall {Y} (f : tracker -> Y -> option tracker), (forall t y t', f t y = Some t' -> t_ep t' = t_ep t) -> forall l t t', foldM f l t = Some t' -> t_ep t' = t_ep t).
  { intros Y f H. induction l as [|y l IH]; intros t t' E; [injection E as <-; reflexivity|]. rewrite foldM_cons in E. destruct (f t y) as [t1|] eqn:E1; [|discriminate]. cbn [bind] in E. rewrite (IH _ _ E). eapply H. exact E1. }
  assert (AI : forall (t : tracker) a b c e, t_ep (add_item t a b c e) = t_ep t) by (intros; unfold add_item; destruct (String.eqb _ _); reflexivity).
  assert (PP : forall (t : tracker) n nm e i, t_ep (add_peer_policy fname t n nm e i) = t_ep t) by (intros; unfold add_peer_policy; destruct (dget _ _); reflexivity).
  assert (AP : forall (t : tracker) p t', add_policy_to_peers A ends fname t p = Some t' -> t_ep t' = t_ep t).
  { intros t p. unfold add_policy_to_peers. intros t' E. change (foldM (fun t peer => bind (extract_peers ends t (allow_props A p true)) (fun i => bind (extract_peers ends t (allow_props A p false)) (fun e => Some (add_peer_policy fname t (fname peer) (p_name p) (snd e) (fst i))))) (p_selected p) t = Some t') in E.
    revert E. apply F. clear - PP. intros t q t' E. destruct (extract_peers ends t _) as [i|]; [|discriminate]. cbn [bind] in E. destruct (extract_peers ends t _) as [e|]; [|discriminate]. cbn [bind] in E. injection E as <-. apply PP. }
  intros t tf E. unfold load in E. destruct (foldM (load_doc A ends fname) docs t) as [t1|] eqn:E1; [|discriminate]. cbn [bind] in E. destruct (foldM (load_gate A ends fname) gates t1) as [t2|] eqn:E2; [|discriminate]. cbn [bind] in E.
  apply F in E; [|exact AP]. apply F in E2. 2:{ intros t3 y t4 H. unfold load_gate in H. apply AP in H. rewrite H. apply AI. }
  apply F in E1. 2:{ intros t3 [p path ln|nm path ln] t4 H; cbn [load_doc] in H; [|injection H as <-; apply AI]. destruct (add_policy_to_peers A ends fname t3 p) as [t5|] eqn:E5; [|discriminate]. cbn [bind] in H. injection H as <-. rewrite AI. eapply AP. exact E5. }
  congruence.
Qed.
(** What is known of a peer after the run: its lists before the last step, which changes only unknown peers. *)
Record after_run (k : nat) (n : string) (tl t' tf : tracker) (ps : peerset) : Prop := AfterRun {
  ar_run : tracked A ends fname cl owner workload Q h6 ep items docs gates sidecars flag s g = Some tf;
  ar_loaded : loaded_at A ends fname tl (fname (Named k n)) (all_loaded docs gates sidecars);
  ar_fold : foldM (track_layer A ends fname (g_peers g)) (tracked_layers g) tl = Some t';
  ar_keeps : keeps tl t' (fname (Named k n));
  ar_peers : t_peers tf = ps;
  ar_expl : expl_peers A ends cl owner workload Q h6 t' flag s g = Some ps;
  ar_conns : t_conns tf = Some (expl_conns A cl owner workload Q h6 flag s g);
  ar_ep : t_ep tf = ep;
  ar_item : dget (t_items tf) (fname (Named k n)) = dget (t_items t') (fname (Named k n));
  ar_known : known t' (fname (Named k n)) = true -> dget (t_of tf) (fname (Named k n)) = dget (t_of t') (fname (Named k n));
  ar_new : known t' (fname (Named k n)) = false -> hit fname ps (fname (Named k n)) = true ->
    known tf (fname (Named k n)) = true /\ forall z, In z (all_at tf (fname (Named k n))) <-> z = default_policy }.
Lemma run_node : forall k n, In (Named k n) (g_peers g) -> listed_item (fname (Named k n)) -> exists tl t' tf ps, after_run k n tl t' tf ps.
Proof using L QL EL FN NB G St LD PO ND.
  intros k n Hk [Hne Hit]. destruct (loaded_init A ends fname ep items _ Hit Hne) as [Li Le].
  destruct (load_spec A ends fname (load_items (activate ep) items) docs gates sidecars _ Li sound_loaded) as (t0 & El & Ld).
  pose proof (load_keeps_ep _ _ El) as E0. rewrite Le in E0.
  apply (loaded_peers t0 _ _ (g_peers g)) in Ld. pose proof (proj1 (HC _ Hk)) as V.
  destruct (track_layers_spec A src dst tcp space cmem cok csafe vis L ends fname EL FN (g_peers g) HC k n V (tracked_layers g) (set_peers t0 (g_peers g)) tracked_ok (la_item _ _ _ _ _ _ Ld)) as (t' & Et & K & _).
  destruct (expl_peers_spec t' flag s) as (ps & Ep' & _).
  pose proof (connections_step fname t' (expl_conns A cl owner workload Q h6 flag s g) ps (fname (Named k n)) (k_item _ _ _ K)) as S. cbv zeta in S. destruct S as (S1 & S2 & S3 & S4 & S5 & S6).
  exists (set_peers t0 (g_peers g)), t', (set_connections_and_peers fname t' (expl_conns A cl owner workload Q h6 flag s g) ps), ps. constructor; auto.
  - unfold tracked. rewrite El. cbn [bind]. unfold run_map, track_config. rewrite Et. cbn [bind]. rewrite Ep'. reflexivity.
  - rewrite S3, (k_ep _ _ _ K). exact E0.
Qed.
Lemma replace_absent : forall c new x, has_char c x = false -> py_replace (String c "") new x = x.
Proof using.
  intros c new x. unfold py_replace. induction x as [|a x IH]; cbn [has_char replace_from]; [reflexivity|]. intros H. apply orb_false_iff in H as [H1 H2]. cbn [String.prefix].
  destruct (ascii_dec c a) as [->|Nc]; [rewrite Ascii.eqb_refl in H1; discriminate|]. f_equal. apply IH. exact H2.
Qed.
(** Names without brackets stand for themselves. *)
Definition bare (n : string) : Prop := has_char "[" n = false /\ has_char "]" n = false.
Lemma working_self : forall (t : tracker) n, t_ep t = ep -> bare n -> working_name t n = n.
Proof using Ep.
  intros t n E [H1 H2]. unfold working_name. rewrite (replace_absent "[" "(" n H1), (replace_absent "]" ")" n H2), E. destruct (String.eqb_spec ep "deployments"); [congruence|reflexivity].
Qed.
Lemma peer_found : forall (t : tracker) k n, pok vis (t_peers t) -> In (Named k n) vis -> In (Named k n) (t_peers t) -> peer_by_name fname t (fname (Named k n)) = Some (Named k n).
Proof using FN.
  intros t k n [P1 P2] V H. unfold peer_by_name. destruct (find _ (t_peers t)) as [q|] eqn:E.
  - apply find_some in E as [Hq E]. apply String.eqb_eq in E. f_equal. apply FN; auto. destruct q as [k' n'|l]; [right; apply P2; exact Hq|left; reflexivity].
  - exfalso. pose proof (List.find_none _ _ E _ H) as Z. cbn beta in Z. rewrite String.eqb_refl in Z. discriminate.
Qed.
Lemma pok_one : forall k n, In (Named k n) vis -> pok vis [Named k n].
Proof using. intros k n V. split; [intros l [H|[]]; discriminate|]. intros k' n' [H|[]]. injection H as <- <-. exact V. Qed.
(** The connections of the map between two peers. *)
Definition linked (ka : nat) (na : string) (kb : nat) (nb : string) : Prop :=
  exists pt, space pt /\ src pt = PN ka na /\ dst pt = PN kb nb /\ cmem pt (expl_conns A cl owner workload Q h6 flag s g).
Lemma connected_spec : forall (t : tracker) ka na kb nb, pok vis (t_peers t) -> In (Named ka na) vis -> In (Named kb nb) vis -> In (Named ka na) (t_peers t) -> In (Named kb nb) (t_peers t) ->
  t_conns t = Some (expl_conns A cl owner workload Q h6 flag s g) ->
  exists b, peers_connected A fname t (fname (Named ka na)) (fname (Named kb nb)) = Some b /\ (b = true <-> linked ka na kb nb).
Proof using L QL NB G St FN.
  intros t ka na kb nb P Va Vb Ha Hb E. unfold peers_connected. rewrite !peer_found by auto. rewrite E. cbn [bind]. eexists. split; [reflexivity|].
  destruct (expl_conns_spec flag s) as [K _]. cbv zeta in K. pose proof (pok_one ka na Va) as Pa. pose proof (pok_one kb nb Vb) as Pb.
  assert (R : cok (c_rect A (Some [Named ka na]) (Some [Named kb nb]) None)) by (apply (law l_rect_ok); auto).
  assert (O : forall y k n, pt_in y [Named k n] <-> y = PN k n).
  { intros [k' n'|y] k n; cbn [pt_in In]; [split; [intros [H|[]]; congruence|intros H; left; congruence]|]. split; [intros (l & [H|[]] & _); discriminate|discriminate]. }
  rewrite (law l_bool) by (apply (law l_and_ok); auto). unfold linked. split.
  - intros (pt & Sp & H). rewrite (law l_and), (law l_rect) in H by (auto; cbn [opt]; auto). cbn [opt] in H. destruct H as (H1 & H2 & H3 & _). exists pt. rewrite <- !O. auto.
  - intros (pt & Sp & H2 & H3 & H1). exists pt. split; [exact Sp|]. rewrite (law l_and), (law l_rect) by (auto; cbn [opt]; auto). cbn [opt]. rewrite !O. auto.
Qed.

(** ** Two peers *)
Section Two.
Context (ka : nat) (na : string) (kb : nat) (nb : string) (Ha : In (Named ka na) (g_peers g)) (Hb : In (Named kb nb) (g_peers g)).
Let a := fname (Named ka na).
Let b := fname (Named kb nb).
Context (Ia : listed_item a) (Ib : listed_item b) (Ba : bare a) (Bb : bare b).
Let Va : In (Named ka na) vis := proj1 (HC _ Ha).
Let Vb : In (Named kb nb) vis := proj1 (HC _ Hb).

Lemma sorted_asc : forall l, ascending (sorted_set l).
Proof using. induction l as [|x l IH]; cbn [sorted_set fold_right]; [constructor|apply insert_str_ascending; exact IH]. Qed.
Theorem pair_connected : heeded false ka na -> even false ka na -> heeded true kb nb -> even true kb nb -> linked ka na kb nb ->
  exists t ls ld, tracked A ends fname cl owner workload Q h6 ep items docs gates sidecars flag s g = Some t /\
    explain_nodes A fname t [a; b] = Some (RTwo true a b ls ld) /\ ascending ls /\ ascending ld /\ ls <> [] /\ ld <> [] /\
    (forall z, In z ls <-> explains ka na false kb nb z) /\ (forall z, In z ld <-> explains kb nb true ka na z).
Proof using L QL EL FN NB G St Iv LD PO NP ND Ep Ha Hb Ia Ib Ba Bb.
  intros H1 E1 H2 E2 Lk. pose proof Lk as (pt & Sp & Sa & Sb & Mx). pose proof (expl_conns_spec flag s) as [Kx Xs]. cbv zeta in Xs. apply Xs in Mx as [Mm Tc]; [|exact Sp].
  destruct (map_conns_spec cl owner workload A Q src dst tcp space cmem cok csafe vis put L QL NB h6 flag s g G St) as (_ & _ & _ & M & _). pose proof (proj1 (M pt Sp) Mm) as (Al & _).
  destruct (run_node ka na Ha Ia) as (tl & t' & tf & ps & R). destruct (run_node kb nb Hb Ib) as (tl2 & t2 & tf2 & ps2 & R2).
  assert (tf2 = tf) by (pose proof (ar_run _ _ _ _ _ _ R); pose proof (ar_run _ _ _ _ _ _ R2); congruence). subst tf2.
  destruct (side_lists ka na Ha tl false pt kb nb H1 E1 (ar_loaded _ _ _ _ _ _ R) (conj Sp (conj Sa (conj Sb Vb))) Al Tc) as (u & Eu & _ & Kn & Ls & Ex).
  rewrite (ar_fold _ _ _ _ _ _ R) in Eu. injection Eu as <-.
  destruct (side_lists kb nb Hb tl2 true pt ka na H2 E2 (ar_loaded _ _ _ _ _ _ R2) (conj Sp (conj Sb (conj Sa Va))) Al Tc) as (u & Eu & _ & Kn2 & Ls2 & Ex2).
  rewrite (ar_fold _ _ _ _ _ _ R2) in Eu. injection Eu as <-.
  pose proof (ar_known _ _ _ _ _ _ R Kn) as O1. pose proof (ar_known _ _ _ _ _ _ R2 Kn2) as O2. fold a in O1, Kn, Ls, Ls2. fold b in O2, Kn2, Ls, Ls2.
  assert (I1 : item_at tf a = true) by (unfold item_at, a; rewrite (ar_item _ _ _ _ _ _ R); apply (k_item _ _ _ (ar_keeps _ _ _ _ _ _ R))).
  assert (I2 : item_at tf b = true) by (unfold item_at, b; rewrite (ar_item _ _ _ _ _ _ R2); apply (k_item _ _ _ (ar_keeps _ _ _ _ _ _ R2))).
  destruct (expl_peers_spec t' flag s) as (ps' & Ep' & Pp & Pc & _). rewrite (ar_expl _ _ _ _ _ _ R) in Ep'. injection Ep' as <-. destruct (Pc pt Sp Mm) as [Pa Pb]. rewrite Sa in Pa. rewrite Sb in Pb. cbn [pt_in] in Pa, Pb.
  rewrite <- (ar_peers _ _ _ _ _ _ R) in Pa, Pb, Pp.
  destruct (connected_spec tf ka na kb nb Pp Va Vb Pa Pb (ar_conns _ _ _ _ _ _ R)) as (bo & Ec & Hbo). rewrite (proj2 Hbo Lk) in Ec. fold a b in Ec.
  pose proof (working_self tf a (ar_ep _ _ _ _ _ _ R) Ba) as Wa. pose proof (working_self tf b (ar_ep _ _ _ _ _ _ R) Bb) as Wb.
  assert (Kf : known tf a = true) by (unfold known; rewrite O1; exact Kn). assert (Kf2 : known tf b = true) by (unfold known; rewrite O2; exact Kn2).
  assert (Re : forallb (has_results tf) [a; b] = true).
  { cbn [forallb]. unfold has_results. rewrite Wa, Wb. unfold item_at, known in *. destruct (dget (t_items tf) a); [|discriminate]. destruct (dget (t_of tf) a); [|discriminate]. destruct (dget (t_items tf) b); [|discriminate]. destruct (dget (t_of tf) b); [reflexivity|discriminate]. }
  exists tf. do 2 eexists. split; [apply (ar_run _ _ _ _ _ _ R)|]. split.
  { unfold explain_nodes. rewrite Re. cbn [negb]. rewrite Wa, Wb, Ec. cbn [bind]. reflexivity. }
  assert (PA : forall z, In z (policies_of tf a (fun r => dget (af_egress r) b)) <-> explains ka na false kb nb z).
  { intros z. rewrite <- Ls. unfold policies_of, map_at, get0. rewrite O1. destruct (dget (t_of t') a) as [r|]; [|tauto]. cbn [of_dir]. destruct (dget (af_egress r) b); [apply sorted_set_In|tauto]. }
  assert (PB : forall z, In z (policies_of tf b (fun r => dget (af_ingress r) a)) <-> explains kb nb true ka na z).
  { intros z. rewrite <- Ls2. unfold policies_of, map_at, get0. rewrite O2. destruct (dget (t_of t2) b) as [r|]; [|tauto]. cbn [of_dir]. destruct (dget (af_ingress r) a); [apply sorted_set_In|tauto]. }
  assert (AS : forall n f, ascending (policies_of tf n f)).
  { intros n f. unfold policies_of. destruct (dget (t_of tf) n) as [r|]; [|constructor]. destruct (f r); [apply sorted_asc|constructor]. }
  split; [apply AS|]. split; [apply AS|]. split; [|split; [|split; assumption]].
  - intros E. destruct Ex as (z & Hz). apply PA in Hz. rewrite E in Hz. exact Hz.
  - intros E. destruct Ex2 as (z & Hz). apply PB in Hz. rewrite E in Hz. exact Hz.
Qed.

(** All policies of one peer. *)
Lemma all_policies : forall k n tl t' tf ps, In (Named k n) (g_peers g) -> after_run k n tl t' tf ps -> hit fname ps (fname (Named k n)) = true ->
  known tf (fname (Named k n)) = true /\
  (forall p, In p (policy_list g) -> pt_in (PN k n) (p_selected p) -> In (p_name p) (all_at tf (fname (Named k n)))) /\
  (forall z, In z (all_at tf (fname (Named k n))) -> z = default_policy \/ exists p, In p (policy_list g) /\ pt_in (PN k n) (p_selected p) /\ p_name p = z).
Proof using FN G LD PO.
  intros k n tl t' tf ps Hk R Hh. pose proof (ar_loaded _ _ _ _ _ _ R) as Ld. pose proof (ar_keeps _ _ _ _ _ _ R) as K.
  assert (CS : forall p, In p (policy_list g) -> (chosen_by fname p (fname (Named k n)) = true <-> pt_in (PN k n) (p_selected p))).
  { intros p Hp. destruct (PO p Hp) as [(_ & _ & P) _]. apply hit_pt with (vis := vis); auto. apply (HC _ Hk). }
  destruct (known t' (fname (Named k n))) eqn:Kn.
  - pose proof (ar_known _ _ _ _ _ _ R Kn) as O1. assert (Ea : all_at tf (fname (Named k n)) = all_at t' (fname (Named k n))) by (unfold all_at; rewrite O1; reflexivity).
    split; [unfold known in *; rewrite O1; exact Kn|]. rewrite Ea. split.
    + intros p Hp Hs. apply (k_all _ _ _ K). apply (la_all _ _ _ _ _ _ Ld). exists p. split; [apply LD; exact Hp|]. split; [apply CS; auto|reflexivity].
    + intros z Hz. apply (k_new _ _ _ K) in Hz as [Hz|Hz]; [auto|]. right. apply (la_all _ _ _ _ _ _ Ld) in Hz as (p & Hp & Hc & ->). apply LD in Hp. exists p. split; [exact Hp|]. split; [apply CS; auto|reflexivity].
  - destruct (ar_new _ _ _ _ _ _ R Kn Hh) as [Kf Af]. split; [exact Kf|]. split; [|intros z Hz; left; apply Af; exact Hz].
    intros p Hp Hs. exfalso. assert (X : known t' (fname (Named k n)) = true); [|congruence]. apply (k_known _ _ _ K). rewrite (la_known _ _ _ _ _ _ Ld). apply existsb_exists. exists p. split; [apply LD; exact Hp|apply CS; auto].
Qed.
(** No policy takes the first peer as a source or the second as a destination: they are connected. *)
Lemma free_pair : ~ named_dns (PN ka na) -> ~ named_hep (PN ka na) -> ~ named_dns (PN kb nb) -> ~ named_hep (PN kb nb) ->
  (forall p, In p (policy_list g) -> ~ pt_in (PN ka na) (policy_captured p false) /\ ~ pt_in (PN kb nb) (policy_captured p true)) ->
  exists pt, space pt /\ src pt = PN ka na /\ dst pt = PN kb nb /\ tcp pt = true /\ allows A cmem g pt.
Proof using L QL G Iv Ha Hb.
  intros D1 P1 D2 P2 NC. destruct (qlaw q_point (PN ka na) (PN kb nb) true) as (pt & Sp & Sa & Sb & T); [left; exact Va|left; exact Vb|]. exists pt. split; [exact Sp|]. split; [exact Sa|]. split; [exact Sb|]. split; [exact T|].
  assert (Aa : anywhere (g_peers g) (src pt)) by (rewrite Sa; left; exact Ha). assert (Ab : anywhere (g_peers g) (dst pt)) by (rewrite Sb; left; exact Hb).
  assert (Pa : pod (g_peers g) (src pt)) by (rewrite Sa; split; [exact Ha|exact D1]). assert (Pb : pod (g_peers g) (dst pt)) by (rewrite Sb; split; [exact Hb|exact D2]).
  apply allows_tracked; auto. intros n pols Hl.
  assert (IP : forall p, In p pols -> In p (policy_list g)).
  { intros p Hp. destruct (tracked_in _ _ Hl) as [Hl'|Hl']; [apply (layer_policy g n pols p Iv Hl' Hp)|]. injection Hl' as -> ->. destruct Hp. }
  assert (CN : forall capf d, ~ captured_by capf pols d (here d pt)).
  { intros capf d (p & Hp & _ & Hc). destruct (NC p (IP p Hp)) as [N1 N2]. destruct d; cbn [LayerFacts.here] in Hc; [rewrite Sb in Hc|rewrite Sa in Hc]; auto. }
  assert (DN : forall d, ~ first_says (decides cmem d pt) pols Deny).
  { intros d (pre & p & post & E & Hd & _). assert (Hp : In p pols) by (rewrite E; apply in_or_app; right; left; reflexivity).
    destruct (tracked_in _ _ Hl) as [Hl'|Hl']; [|injection Hl' as -> ->; destruct Hp]. destruct (proj2 (proj2 G) n pols Hl' p d pt Deny Hp Sp Hd) as [Hc _].
    destruct (NC p (IP p Hp)) as [N1 N2]. destruct d; cbn [LayerFacts.here] in Hc; [rewrite Sb in Hc|rewrite Sa in Hc]; auto. }
  assert (AN : forall x, pod (g_peers g) x -> anywhere_no_dns (g_peers g) x) by (intros x; unfold pod, anywhere_no_dns; auto).
  assert (Df : forall d, dir_default src dst tcp cmem (g_peers g) n pols d pt).
  { intros d. assert (K8 : k8s_default src dst (g_peers g) pols d pt).
    { split; [destruct d; [apply Pb|apply Pa]|]. split; [destruct d; cbn [LayerFacts.here]; [rewrite Sb|rewrite Sa]; assumption|]. split; [apply CN|]. destruct d; assumption. }
    assert (IS : istio_default src dst tcp cmem (g_peers g) pols d pt).
    { right. split; [apply DN|]. destruct d.
      - split; [apply AN; exact Pa|]. split; [apply (CN istio_capf true)|]. left. exact Pb.
      - split; [exact Pa|]. split; [apply (CN istio_capf false)|]. left. apply AN. exact Pb. }
    destruct n; assumption. }
  split; right; left; apply Df.
Qed.
Theorem pair_apart : no_subset s = true -> ~ linked ka na kb nb ->
  exists t ls ld, tracked A ends fname cl owner workload Q h6 ep items docs gates sidecars flag s g = Some t /\
    explain_nodes A fname t [a; b] = Some (RTwo false a b ls ld) /\ ascending ls /\ ascending ld /\
    (forall p, In p (policy_list g) -> (pt_in (PN ka na) (p_selected p) -> In (p_name p) ls) /\ (pt_in (PN kb nb) (p_selected p) -> In (p_name p) ld)) /\
    (forall z, In z ls -> z = default_policy \/ exists p, In p (policy_list g) /\ pt_in (PN ka na) (p_selected p) /\ p_name p = z) /\
    (forall z, In z ld -> z = default_policy \/ exists p, In p (policy_list g) /\ pt_in (PN kb nb) (p_selected p) /\ p_name p = z) /\
    (~ named_dns (PN ka na) -> ~ named_hep (PN ka na) -> ~ named_dns (PN kb nb) -> ~ named_hep (PN kb nb) ->
     exists p, In p (policy_list g) /\ (pt_in (PN ka na) (policy_captured p false) /\ In (p_name p) ls \/ pt_in (PN kb nb) (policy_captured p true) /\ In (p_name p) ld)).
Proof using L QL EL FN NB G St Iv LD PO NP ND Ep Ha Hb Ia Ib Ba Bb.
  intros Ns Nl. destruct (run_node ka na Ha Ia) as (tl & t' & tf & ps & R). destruct (run_node kb nb Hb Ib) as (tl2 & t2 & tf2 & ps2 & R2).
  assert (tf2 = tf) by (pose proof (ar_run _ _ _ _ _ _ R); pose proof (ar_run _ _ _ _ _ _ R2); congruence). subst tf2.
  assert (ps2 = ps) by (pose proof (ar_peers _ _ _ _ _ _ R); pose proof (ar_peers _ _ _ _ _ _ R2); congruence). subst ps2.
  destruct (expl_peers_spec t' flag s) as (ps' & Ep' & Pp & _ & Pc). rewrite (ar_expl _ _ _ _ _ _ R) in Ep'. injection Ep' as <-. pose proof (Pc Ns ka na Ha) as Pa. pose proof (Pc Ns kb nb Hb) as Pb.
  destruct (all_policies ka na tl t' tf ps Ha R) as (K1 & F1 & B1); [apply hit_spec; eauto|]. destruct (all_policies kb nb tl2 t2 tf ps Hb R2) as (K2 & F2 & B2); [apply hit_spec; eauto|].
  rewrite <- (ar_peers _ _ _ _ _ _ R) in Pa, Pb, Pp. fold a in K1, F1, B1. fold b in K2, F2, B2.
  assert (I1 : item_at tf a = true) by (unfold item_at, a; rewrite (ar_item _ _ _ _ _ _ R); apply (k_item _ _ _ (ar_keeps _ _ _ _ _ _ R))).
  assert (I2 : item_at tf b = true) by (unfold item_at, b; rewrite (ar_item _ _ _ _ _ _ R2); apply (k_item _ _ _ (ar_keeps _ _ _ _ _ _ R2))).
  destruct (connected_spec tf ka na kb nb Pp Va Vb Pa Pb (ar_conns _ _ _ _ _ _ R)) as (bo & Ec & Hbo). fold a b in Ec. assert (bo = false) by (destruct bo; [destruct Nl; apply Hbo; reflexivity|reflexivity]). subst bo.
  pose proof (working_self tf a (ar_ep _ _ _ _ _ _ R) Ba) as Wa. pose proof (working_self tf b (ar_ep _ _ _ _ _ _ R) Bb) as Wb.
  assert (Re : forallb (has_results tf) [a; b] = true).
  { cbn [forallb]. unfold has_results. rewrite Wa, Wb. unfold item_at, known in *. destruct (dget (t_items tf) a); [|discriminate]. destruct (dget (t_of tf) a); [|discriminate]. destruct (dget (t_items tf) b); [|discriminate]. destruct (dget (t_of tf) b); [reflexivity|discriminate]. }
  exists tf. do 2 eexists. split; [apply (ar_run _ _ _ _ _ _ R)|]. split.
  { unfold explain_nodes. rewrite Re. cbn [negb]. rewrite Wa, Wb, Ec. cbn [bind]. reflexivity. }
  assert (AL : forall n z, In z (policies_of tf n (fun r => Some (af_all r))) <-> In z (all_at tf n)).
  { intros n z. unfold policies_of, all_at. destruct (dget (t_of tf) n); [apply sorted_set_In|tauto]. }
  assert (AS : forall n f, ascending (policies_of tf n f)).
  { intros n f. unfold policies_of. destruct (dget (t_of tf) n) as [r|]; [|constructor]. destruct (f r); [apply sorted_asc|constructor]. }
  split; [apply AS|]. split; [apply AS|]. split; [intros p Hp; rewrite !AL; split; auto|]. split; [intros z; rewrite AL; apply B1|]. split; [intros z; rewrite AL; apply B2|].
  intros D1 P1 D2 P2. destruct (existsb (fun p => hit fname (policy_captured p false) a || hit fname (policy_captured p true) b) (policy_list g)) eqn:Ex.
  - apply existsb_exists in Ex as (p & Hp & Hh). exists p. split; [exact Hp|]. destruct (PO p Hp) as [(_ & _ & Pk) _].
    assert (Pd : forall d, pok vis (policy_captured p d)) by (intros d; destruct (captured_selected p d) as [E|E]; rewrite E; [apply pok_nil|exact Pk]).
    assert (Sl : forall x d, pt_in x (policy_captured p d) -> pt_in x (p_selected p)) by (intros x d H; destruct (captured_selected p d) as [E|E]; rewrite E in H; [destruct (pt_nil _ H)|exact H]).
    apply orb_true_iff in Hh as [Hh|Hh]; [left|right]; (apply (hit_pt vis fname FN) in Hh; [|apply Pd|assumption]); (split; [exact Hh|]); rewrite AL; [apply F1|apply F2]; auto; eapply Sl; exact Hh.
  - exfalso. apply Nl. destruct free_pair as (pt & Sp & Sa & Sb & T & Al); auto.
    { intros p Hp. destruct (PO p Hp) as [(_ & _ & Pk) _]. assert (Pd : forall d, pok vis (policy_captured p d)) by (intros d; destruct (captured_selected p d) as [E|E]; rewrite E; [apply pok_nil|exact Pk]).
      assert (Z : hit fname (policy_captured p false) a || hit fname (policy_captured p true) b = false).
      { destruct (hit fname (policy_captured p false) a || hit fname (policy_captured p true) b) eqn:E; [|reflexivity]. rewrite <- Ex. symmetry. apply existsb_exists. eauto. }
      apply orb_false_iff in Z as [Z1 Z2]. split; intros H; apply (hit_pt vis fname FN) in H; auto; unfold a, b in *; congruence. }
    exists pt. split; [exact Sp|]. split; [exact Sa|]. split; [exact Sb|]. destruct (expl_conns_spec flag s) as [_ Xs]. cbv zeta in Xs. apply Xs; [exact Sp|]. split; [|auto].
    destruct (map_conns_spec cl owner workload A Q src dst tcp space cmem cok csafe vis put L QL NB h6 flag s g G St) as (_ & _ & _ & M & _). apply M; [exact Sp|]. split; [exact Al|]. rewrite Sa, Sb. split.
    + split; [|cbn [v6]; tauto]. split; [|exact D1]. cbn [is_addr]. tauto.
    + left. unfold in_sub, in_subset. rewrite Ns. reflexivity.
Qed.
End Two.
End Config.
End Run.
