(** * The tracker of explanations and the semantics of layers. *)
From Coq Require Import ZArith List Bool Arith Lia String Ascii Permutation.
From Verif Require Import MinDfaModel ConnTextModel IntervalModel TextModel PortProtoModel GraphModel PeerModel PeerFacts PeerSetFacts PolicyModel PolicyLaws PolicyFacts LayerFacts
                          OrderFacts QueryModel QueryFacts QuerySpecs QueryOne YamlModel ClusterModel MapModel MapFacts ExplModel ExplFacts.
Import ListNotations.
Local Open Scope string_scope.
Local Open Scope list_scope.
Local Open Scope nat_scope.

Section Alg.
Context {C Pt : Type} (A : cops C) (Q : qops C) (src dst : Pt -> point) (tcp : Pt -> bool) (space : Pt -> Prop)
        (cmem : Pt -> C -> Prop) (cok : C -> Prop) (csafe : C -> C -> Prop) (vis : list peer) (put : Pt -> Pt -> Pt)
        (L : claws A src dst tcp space cmem cok csafe vis) (QL : qlaws A Q src dst tcp space cmem cok csafe vis put)
        (NB : forall p, In p vis -> is_block p = false) (h6 : @policy C -> bool).
Context (ends : C -> option (list (peerset * peerset))) (fname : peer -> string).
Local Notation law f := (f _ _ _ _ _ _ _ _ _ L).
Local Notation qlaw f := (f _ _ _ _ _ _ _ _ _ _ _ QL).
Local Notation tracker := (@tracker C).
Local Notation policy := (@policy C).
Local Notation config := (@config C).
Local Notation says := (policy_says cmem).
Local Notation here := (here src dst).
Local Notation there := (there src dst).

(** The peers of the cubes of a connection set are exactly the ends of its connections. *)
Definition ends_law : Prop := forall x, cok x -> exists l, ends x = Some l /\
  (forall e, In e l -> pok vis (fst e) /\ pok vis (snd e) /\ (exists y, pt_in y (fst e)) /\ exists y, pt_in y (snd e)) /\
  (forall y, (exists e, In e l /\ pt_in y (fst e)) <-> exists pt, space pt /\ cmem pt x /\ src pt = y) /\
  (forall y, (exists e, In e l /\ pt_in y (snd e)) <-> exists pt, space pt /\ cmem pt x /\ dst pt = y).
Context (EL : ends_law).
(** The names of peers are different from each other and from those of IP blocks. *)
Context (FN : forall k n q, In (Named k n) vis -> (is_block q = true \/ In q vis) -> fname q = fname (Named k n) -> q = Named k n).

Lemma pt_nil : forall y, ~ pt_in y [].
Proof using. intros [k n|y]; cbn; [tauto|intros (l & [] & _)]. Qed.
Lemma sides_spec : forall x, cok x -> extractable ends x /\
  (pok vis (fst (sides ends x)) /\ pok vis (snd (sides ends x))) /\
  (forall y, pt_in y (fst (sides ends x)) <-> exists pt, space pt /\ cmem pt x /\ src pt = y) /\
  (forall y, pt_in y (snd (sides ends x)) <-> exists pt, space pt /\ cmem pt x /\ dst pt = y) /\
  (fst (sides ends x) = [] <-> forall pt, space pt -> ~ cmem pt x) /\
  (snd (sides ends x) = [] <-> forall pt, space pt -> ~ cmem pt x).
Proof using EL.
  intros x K. destruct (EL x K) as (l & El & P & S & D). split.
  { exists l. split; [exact El|]. intros e He. destruct (P e He) as (_ & _ & (y & Hy) & (z & Hz)). split; intros E; [rewrite E in Hy; revert Hy|rewrite E in Hz; revert Hz]; apply pt_nil. }
  unfold sides. rewrite El.
  assert (G : forall l r, (forall e, In e l -> pok vis (fst e) /\ pok vis (snd e)) -> pok vis (fst r) /\ pok vis (snd r) ->
    let f := fold_left (fun (r : peerset * peerset) e => (ps_union (fst r) (fst e), ps_union (snd r) (snd e))) l r in
    (pok vis (fst f) /\ pok vis (snd f)) /\
    (forall y, pt_in y (fst f) <-> pt_in y (fst r) \/ exists e, In e l /\ pt_in y (fst e)) /\ (forall y, pt_in y (snd f) <-> pt_in y (snd r) \/ exists e, In e l /\ pt_in y (snd e))).
  { clear. induction l as [|e l IH]; intros r H Hr; cbv zeta; cbn [fold_left].
    - split; [exact Hr|]. split; intros y; (split; [auto|intros [H'|(e & [] & _)]; exact H']).
    - destruct (H e (or_introl eq_refl)) as [H1 H2]. destruct (IH (ps_union (fst r) (fst e), ps_union (snd r) (snd e))) as (I1 & I2 & I3).
      + intros e' He. apply H. right. exact He.
      + split; apply pok_union; tauto.
      + split; [exact I1|]. cbn [fst snd] in I2, I3. split; intros y; [rewrite I2, union_In|rewrite I3, union_In].
        * split; [intros [[H'|H']|(e' & H' & H'')]; [auto|right; exists e|right; exists e']; cbn; auto|intros [H'|(e' & [<-|H'] & H'')]; eauto].
        * split; [intros [[H'|H']|(e' & H' & H'')]; [auto|right; exists e|right; exists e']; cbn; auto|intros [H'|(e' & [<-|H'] & H'')]; eauto]. }
  assert (Z : pok vis [] /\ pok vis []) by (split; apply pok_nil).
  destruct (G l ([], []) (fun e He => conj (proj1 (P e He)) (proj1 (proj2 (P e He)))) Z) as (G1 & G2 & G3). cbn [fst snd] in G2, G3.
  match goal with |- context [fold_left ?g l ?r] => set (f := fold_left g l r) in * end.
  assert (F : forall y, pt_in y (fst f) <-> exists pt, space pt /\ cmem pt x /\ src pt = y).
  { intros y. rewrite G2, <- S. split; [intros [H|H]; [destruct (pt_nil _ H)|exact H]|auto]. }
  assert (F' : forall y, pt_in y (snd f) <-> exists pt, space pt /\ cmem pt x /\ dst pt = y).
  { intros y. rewrite G3, <- D. split; [intros [H|H]; [destruct (pt_nil _ H)|exact H]|auto]. }
  split; [exact G1|]. split; [exact F|]. split; [exact F'|].
  assert (N : (forall pt, space pt -> ~ cmem pt x) -> l = []).
  { intros H. destruct l as [|e l0]; [reflexivity|]. exfalso. destruct (P e (or_introl eq_refl)) as (_ & _ & (y & Hy) & _). destruct (proj1 (S y)) as (pt & Sp & M & _); [exists e; cbn; auto|]. exact (H pt Sp M). }
  split; (split; [|intros H; unfold f; rewrite (N H); reflexivity]).
  - intros E pt Sp M. apply (pt_nil (src pt)). rewrite <- E. apply F. eauto.
  - intros E pt Sp M. apply (pt_nil (dst pt)). rewrite <- E. apply F'. eauto.
Qed.
Lemma hit_pt : forall ps k n, pok vis ps -> In (Named k n) vis -> (hit fname ps (fname (Named k n)) = true <-> pt_in (PN k n) ps).
Proof using FN.
  intros ps k n [P1 P2] V. rewrite hit_spec. cbn [pt_in]. split.
  - intros (q & Hq & E). assert (q = Named k n); [|subst q; exact Hq]. apply FN; [exact V| |exact E]. destruct q as [k' n'|l]; [right; apply P2; exact Hq|left; reflexivity].
  - intros H. exists (Named k n). auto.
Qed.

(** ** Defaults of layers *)
Definition tcp_if (n : lname) (pt : Pt) : Prop := match n with LK8sCalico | LK8sGateway => True | _ => tcp pt = true end.
Lemma default_conns_spec : forall ps n pols ing, container vis ps -> layer_ok A cok csafe vis n ing pols ->
  (forall x, default_conns A n ps pols ing = Some x -> cok x) /\
  (forall pt, space pt -> tcp_if n pt -> dir_default src dst tcp cmem ps n pols ing pt -> exists x, default_conns A n ps pols ing = Some x /\ cmem pt x).
Proof using L.
  intros ps n pols ing HC [K S].
  assert (K8 : collect_safe A csafe any_policy ing pols -> (forall x, k8s_default_conns A ps pols ing = Some x -> cok x) /\
    (forall pt, space pt -> k8s_default src dst ps pols ing pt -> exists x, k8s_default_conns A ps pols ing = Some x /\ cmem pt x)).
  { clear S. intros S. unfold k8s_default_conns. cbv zeta. change (fun _ : policy => true) with (@any_policy C).
    destruct (collect_spec A src dst tcp space cmem cok csafe vis L any_policy ing pols K S) as (R1 & R2 & _). set (r := collect A any_policy pols ing) in *. clearbody r.
    destruct (LayerFacts.all_group vis ps HC) as [G1 G2]. destruct (no_hep_spec vis ps HC) as [B1 B2].
    set (base := filter (fun p => negb (is_hep p)) (peers_group ps false true)) in *. clearbody base. destruct (psub_spec vis base (captured r) B1 R1) as [N1 N2].
    destruct (rect_dir_spec A src dst tcp space cmem cok csafe vis L ing _ _ G1 N1) as [X1 X2]. set (nc := psub base (captured r)) in *. clearbody nc. destruct (pbool nc) eqn:E; (split; [intros x H|intros pt Sp (H1 & H2 & H3 & H4)]).
    - injection H as <-. exact X1.
    - eexists. split; [reflexivity|]. apply X2; [exact Sp|]. rewrite G2, N2, B2, R2. auto.
    - discriminate.
    - exfalso. apply (pbool_false _ (LayerFacts.here src dst ing pt)) in E. apply E. rewrite N2, B2, R2. auto. }
  assert (IS : collect_safe A csafe istio_capf ing pols -> (forall x, istio_default_conns A ps pols ing = Some x -> cok x) /\
    (forall pt, space pt -> tcp pt = true -> istio_default src dst tcp cmem ps pols ing pt -> exists x, istio_default_conns A ps pols ing = Some x /\ cmem pt x)).
  { clear S K8. intros S. unfold istio_default_conns. cbv zeta.
    destruct (collect_spec A src dst tcp space cmem cok csafe vis L istio_capf ing pols K S) as (R1 & R2 & _ & (Ra & Rd & Rp) & _ & M). set (r := collect A istio_capf pols ing) in *. clearbody r.
    destruct (nodns_group vis ps HC) as [G1 G2]. destruct (pod_group vis ps HC) as [P1 P2]. destruct (all_dns_spec vis ps HC) as [D1 D2].
    set (all := peers_group ps true false) in *. clearbody all. set (pods := peers_group ps false false) in *. clearbody pods. set (dns := all_dns ps) in *. clearbody dns.
    destruct (psub_spec vis pods (captured r) P1 R1) as [N1 N2]. destruct (psub_spec vis dns (captured r) D1 R1) as [E1 E2].
    pose proof (psub_bool vis pods (captured r) P1 R1) as NBo. set (nc := psub pods (captured r)) in *. clearbody nc. set (ncd := psub dns (captured r)) in *. clearbody ncd.
    assert (S0 : forall s d pr, opt (pok vis) s -> opt (pok vis) d -> solid cok csafe (c_rect A s d pr)).
    { intros s d pr H1 H2 y Ky. apply (law l_safe_rect); auto. }
    destruct (pbool nc) eqn:Enc.
    2:{ split; [discriminate|]. intros pt Sp T [(T0 & _)|[_ H]]; [congruence|]. exfalso. assert (Z : forall x, pod ps x -> ~ captured_by istio_capf pols ing x -> False).
        { intros x H1 H2. assert (X : false = true); [|discriminate]. apply NBo. exists x. rewrite P2, R2. auto. }
        destruct ing; [destruct H as (H1 & H2 & [H3|(H3 & H4 & H5 & x & H6 & H7)]); eapply Z; eauto|destruct H as (H1 & H2 & H3); eapply Z; eauto]. }
    destruct ing.
    - assert (W0 : cok (c_rect A (Some all) (Some nc) None)) by (apply (law l_rect_ok); auto).
      assert (W1 : cok (c_sub A (c_rect A (Some all) (Some nc) None) (denied r))) by (apply (law l_sub_ok); auto; apply S0; auto).
      assert (W2 : cok (c_rect A (Some all) (Some ncd) (Some true))) by (apply (law l_rect_ok); auto).
      assert (W3 : cok (c_sub A (c_rect A (Some all) (Some ncd) (Some true)) (denied r))) by (apply (law l_sub_ok); auto; apply S0; auto).
      split; [intros x E; injection E as <-; destruct (pbool ncd); [apply (law l_or_ok)|]; auto|].
      intros pt Sp T [(T0 & _)|(Nd & H1 & H2 & H3)]; [congruence|]. eexists. split; [reflexivity|]. destruct (M pt Sp) as (M1 & M2 & M3). destruct (pbool ncd) eqn:En.
      + rewrite (law l_or), !(law l_sub), !(law l_rect) by (auto; try apply S0; cbn [opt]; auto). cbn [opt]. rewrite G2, N2, E2, P2, D2, R2, M2. clear - T Nd H1 H2 H3. destruct H3 as [H3|(_ & H3 & H4 & _)]; [left|right]; auto 10.
      + rewrite !(law l_sub), !(law l_rect) by (auto; try apply S0; cbn [opt]; auto). cbn [opt]. rewrite G2, N2, P2, R2, M2. destruct H3 as [H3|(_ & H4 & H5 & _)]; [tauto|].
        exfalso. apply (pbool_false _ (dst pt)) in En. apply En. rewrite E2, D2, R2. auto.
    - assert (W0 : cok (c_rect A (Some nc) (Some all) None)) by (apply (law l_rect_ok); auto).
      assert (W1 : cok (c_rect A (Some nc) (Some dns) (Some true))) by (apply (law l_rect_ok); auto).
      assert (W2 : cok (c_or A (c_rect A (Some nc) (Some all) None) (c_rect A (Some nc) (Some dns) (Some true)))) by (apply (law l_or_ok); auto).
      assert (W3 : csafe (c_or A (c_rect A (Some nc) (Some all) None) (c_rect A (Some nc) (Some dns) (Some true))) (denied r)).
      { apply (or_solid A src dst tcp space cmem cok csafe vis L); auto. }
      split; [intros x E; injection E as <-; apply (law l_sub_ok); auto|].
      intros pt Sp T [(T0 & _)|(Nd & H1 & H2 & H3)]; [congruence|]. eexists. split; [reflexivity|]. destruct (M pt Sp) as (M1 & M2 & M3).
      rewrite (law l_sub), (law l_or), !(law l_rect) by (auto; cbn [opt]; auto). cbn [opt]. rewrite N2, G2, D2, P2, R2, M2. clear - T Nd H1 H2 H3. destruct H3 as [H3|H3]; auto 12. tauto. }
  destruct n; unfold default_conns, dir_default, tcp_if; cbn [layer_ok] in *.
  - destruct (K8 S) as [Y1 Y2]. split; [exact Y1|]. intros pt Sp _. apply Y2. exact Sp.
  - apply IS. exact S.
  - destruct (K8 S) as [Y1 Y2]. split; [exact Y1|]. intros pt Sp _. apply Y2. exact Sp.
  - apply IS. exact S.
Qed.

(** ** One node and one other peer *)
Section Node.
Context (ps : peerset) (HC : container vis ps) (kx : nat) (nx : string) (HX : In (Named kx nx) vis).
Let X := PN kx nx.
Let N := fname (Named kx nx).
(** The other peer. *)
Definition meets (d : bool) (pt : Pt) (ky : nat) (ny : string) : Prop := space pt /\ here d pt = X /\ there d pt = PN ky ny /\ In (Named ky ny) vis.

Lemma side_here : forall (d : bool) (x : C), cok x -> (hit fname (if d then snd (sides ends x) else fst (sides ends x)) N = true <-> exists pt, space pt /\ cmem pt x /\ here d pt = X).
Proof using EL FN HX.
  intros d x K. destruct (sides_spec x K) as (_ & (P1 & P2) & S & D & _). unfold N. destruct d; rewrite hit_pt by auto; [rewrite D|rewrite S]; reflexivity.
Qed.
Lemma side_there : forall (d : bool) (x : C) ky ny, cok x -> In (Named ky ny) vis -> (hit fname (if d then fst (sides ends x) else snd (sides ends x)) (fname (Named ky ny)) = true <-> exists pt, space pt /\ cmem pt x /\ there d pt = PN ky ny).
Proof using EL FN.
  intros d x ky ny K V. destruct (sides_spec x K) as (_ & (P1 & P2) & S & D & _). destruct d; rewrite hit_pt by auto; [rewrite S|rewrite D]; reflexivity.
Qed.
(** The lists of the node for one other peer after a default has been entered. *)
Definition defaulted (t : tracker) (d : bool) (k : string) : Prop := known t N = true /\ forall z, In z (get0 (map_at t d N) k) <-> z = default_policy.
Lemma defaulted_ne : forall t d k, defaulted t d k -> map_at t d N <> [].
Proof using. intros t d k [_ H] E. pose proof (proj2 (H default_policy) eq_refl) as Z. rewrite E in Z. exact Z. Qed.
Lemma defaulted_keeps : forall (t t' : tracker) d k, keeps t t' N -> defaulted t d k -> defaulted t' d k.
Proof using.
  intros t t' d k K D. pose proof (defaulted_ne _ _ _ D) as Ne. destruct D as [D1 D2]. split; [apply (k_known _ _ _ K); exact D1|]. rewrite (k_map _ _ _ K d Ne). exact D2.
Qed.
Lemma track_dir_spec : forall n pols (t : tracker) d, layer_ok A cok csafe vis n d pols -> item_at t N = true ->
  exists t', track_dir A ends fname ps n pols t d = Some t' /\ keeps t t' N /\ map_at t' (negb d) N = map_at t (negb d) N /\
    (map_at t d N = [] -> forall pt ky ny, meets d pt ky ny -> tcp_if n pt -> dir_default src dst tcp cmem ps n pols d pt -> defaulted t' d (fname (Named ky ny))).
Proof using L EL FN HC HX.
  intros n pols t d LO Hi. destruct (default_conns_spec ps n pols d HC LO) as [D1 D2]. unfold track_dir. destruct (default_conns A n ps pols d) as [x|] eqn:E.
  - pose proof (D1 x eq_refl) as K. destruct (sides_spec x K) as (Ex & _). rewrite (extract_sides ends t x Ex). cbn [bind].
    pose proof (default_step fname t (fst (sides ends x)) (snd (sides ends x)) d N Hi) as S. cbv zeta in S. destruct S as (S1 & S2 & S3 & S4 & S5 & S6 & S7).
    eexists. split; [reflexivity|]. split; [exact S1|]. split; [exact S5|]. intros Mn pt ky ny (Sp & Hh & Ht & Vy) T Dd.
    destruct (D2 pt Sp T Dd) as (x' & Ex' & Mx). injection Ex' as <-. pose proof (side_here d x K) as SH. pose proof (side_there d x ky ny K Vy) as ST.
    destruct S7 as (K1 & K2 & K3); [apply SH; eauto|exact Mn|]. split; [exact K1|]. intros z. rewrite K3. assert (H : hit fname (if d then fst (sides ends x) else snd (sides ends x)) (fname (Named ky ny)) = true) by (apply ST; eauto).
    rewrite H. tauto.
  - eexists. split; [reflexivity|]. split; [apply keeps_refl; exact Hi|]. split; [reflexivity|]. intros _ pt ky ny (Sp & _) T Dd. destruct (D2 pt Sp T Dd) as (x & H & _). discriminate.
Qed.
Lemma track_layer_spec : forall n pols (t : tracker), layer_ok A cok csafe vis n true pols -> layer_ok A cok csafe vis n false pols -> item_at t N = true ->
  exists t', track_layer A ends fname ps t (n, pols) = Some t' /\ keeps t t' N /\
    forall d, map_at t d N = [] -> forall pt ky ny, meets d pt ky ny -> tcp_if n pt -> dir_default src dst tcp cmem ps n pols d pt -> defaulted t' d (fname (Named ky ny)).
Proof using L EL FN HC HX.
  intros n pols t L1 L2 Hi. unfold track_layer. cbn [fst snd]. rewrite !foldM_cons. destruct (track_dir_spec n pols t true L1 Hi) as (t1 & -> & K1 & M1 & D1). cbn [bind]. rewrite foldM_cons.
  destruct (track_dir_spec n pols t1 false L2 (k_item _ _ _ K1)) as (t2 & -> & K2 & M2 & D2). cbn [bind]. exists t2. split; [reflexivity|]. split; [eapply keeps_trans; eassumption|].
  intros d Mn pt ky ny Me T Dd. destruct d.
  - eapply defaulted_keeps; [exact K2|]. eapply D1; eassumption.
  - apply (D2 (eq_trans M1 Mn) pt ky ny); assumption.
Qed.
Lemma track_layers_spec : forall ls (t : tracker), (forall n pols, In (n, pols) ls -> layer_ok A cok csafe vis n true pols /\ layer_ok A cok csafe vis n false pols) -> item_at t N = true ->
  exists t', foldM (track_layer A ends fname ps) ls t = Some t' /\ keeps t t' N /\
    forall d, map_at t d N = [] -> forall pt ky ny, meets d pt ky ny -> ls <> [] -> (forall n pols, In (n, pols) ls -> tcp_if n pt /\ dir_default src dst tcp cmem ps n pols d pt) -> defaulted t' d (fname (Named ky ny)).
Proof using L EL FN HC HX.
  induction ls as [|[n pols] ls IH]; intros t LO Hi.
  - exists t. split; [reflexivity|]. split; [apply keeps_refl; exact Hi|]. congruence.
  - rewrite foldM_cons. destruct (LO n pols (or_introl eq_refl)) as [L1 L2]. destruct (track_layer_spec n pols t L1 L2 Hi) as (t1 & -> & K1 & D1). cbn [bind].
    destruct (IH t1 (fun n' p' H => LO n' p' (or_intror H)) (k_item _ _ _ K1)) as (t2 & E2 & K2 & _). exists t2. split; [exact E2|]. split; [eapply keeps_trans; eassumption|].
    intros d Mn pt ky ny Me _ Dd. destruct (Dd n pols (or_introl eq_refl)) as [T Dd']. eapply defaulted_keeps; [exact K2|]. eapply D1; eassumption.
Qed.
End Node.
End Alg.
