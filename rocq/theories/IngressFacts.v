(** * The connections that the Ingress parser makes from parsed paths and rules. *)
From Coq Require Import ZArith List Bool Arith Lia String Ascii.
From Verif Require Import IntervalModel IntervalFacts HyperModel HyperFacts HyperOps HyperDims HyperTop HyperInst PropHyperCube ConnModel ConnFacts TextModel PortProtoModel
                          PeerModel PeerFacts PeerSetFacts PolicyModel PolicyLaws PolicyFacts LayerFacts OrderFacts ConnAlg StdDims PropLayers YamlModel ClusterModel ConnDict
                          K8sParserModel CalicoSelectorModel CalicoParserModel IstioValueModel PropIstioValues IstioRuleFacts ServiceModel IngressModel IngressWords PropIngressPaths GatewayFacts.
Import ListNotations.
Local Open Scope string_scope.
Local Open Scope list_scope.
Local Open Scope nat_scope.
Local Opaque min_pod_index max_pod_index min_ipv6_index max_ipv6_index max_ipv4_index v4max v6min v6max.

Section Parsed.
Context (reg : list peer) (R : reg_ok reg) (cl : cluster).
Context (Hp : forall p nm n pr, assoc_s nm (cl_ports cl p) = Some (n, pr) -> (1 <= n <= 65535)%Z).
Context (code : word -> Z) (dfa : list ascii -> val) (CO : code_ok code).
Let K := std_alg reg R.
Let A := cube_ops std_dom std_all reg.
Let W := cube_laws std_dom std_rest reg reg std_peers [Ivl 0 255] K.
Let O := val_ops std_dom.
Let L := val_laws std_dom (ok_doms _ _ _ _ _ _ K).
Notation space := (a_space std_dom).
Notation from := (a_src reg).
Notation to := (a_dst reg).
Notation ok := (a_ok std_dom std_rest).
Notation mk := (conns_of std_dom reg (cl_ports cl)).
Notation wset := (word_set std_dom).

(** A connection to one of the peers at one of the ports. *)
Definition target (s : peerset) (q : portset) (pt : conn) : Prop :=
  pt_in (to pt) s /\ dport_in (cl_ports cl) (fun pr => 0 <= pr <= 255)%Z (to pt) q (pt 4).
Definition ports_good (q : portset) : Prop := ConnDict.in_range 1 65535 (port_set q) /\ excluded_named_ports q = [].
Lemma empty_spec : ok (c_empty A) /\ regular_conns (c_empty A) /\ forall pt, ~ pt @ c_empty A.
Proof using R.
  split; [exact (l_empty_ok _ _ _ _ _ _ _ _ _ W)|]. split; [left; reflexivity|exact (l_empty _ _ _ _ _ _ _ _ _ W)].
Qed.
Lemma or_spec : forall x y, ok x -> ok y -> regular_conns x -> regular_conns y ->
  ok (c_or A x y) /\ regular_conns (c_or A x y) /\ forall pt, space pt -> (pt @ c_or A x y <-> pt @ x \/ pt @ y).
Proof using R.
  intros x y Ox Oy Rx Ry. split; [exact (l_or_ok _ _ _ _ _ _ _ _ _ W x y Ox Oy)|]. split; [exact (or_regular std_dom reg reg std_peers K x y Ox Oy Rx Ry)|].
  intros pt Sp. exact (l_or _ _ _ _ _ _ _ _ _ W x y pt Ox Oy Sp).
Qed.
Lemma cube_spec : forall s q hosts paths, pok reg s -> ports_good q -> opt (wset 6) hosts -> opt (wset 7) paths ->
  let c := mk (CDict None (Some s) None None (Some q) None hosts paths None None) in
  ok c /\ regular_conns c /\ forall pt, space pt -> (pt @ c <-> target s q pt /\ opt (val_mem (pt 6)) hosts /\ opt (val_mem (pt 7)) paths).
Proof using R Hp.
  intros s q hosts paths Ps [Pq1 Pq2] Hh Hw c.
  assert (DK : dict_ok std_dom reg (CDict None (Some s) None None (Some q) None hosts paths None None)).
  { constructor; cbn [k_src k_dst k_proto k_sports k_dports k_methods k_hosts k_paths k_type k_code opt]; auto. split; auto. split; auto. discriminate. }
  destruct (std_conns_of_spec reg R (cl_ports cl) Hp _ DK) as [Ok M]. split; [exact Ok|].
  split; [exact (std_conns_of_regular reg R (cl_ports cl) Hp _ DK)|]. intros pt Sp.
  refine (iff_trans (M pt Sp) _). unfold dict_rest, target. cbn [k_src k_dst k_proto k_sports k_dports k_methods k_hosts k_paths k_type k_code opt].
  assert (E : forall pr, val_mem pr (dict_cube std_dom reg (CDict None (Some s) None None (Some q) None hosts paths None None) 2) <-> (0 <= pr <= 255)%Z).
  { intros pr. change (mem pr [Ivl 0 255] <-> (0 <= pr <= 255)%Z). rewrite mem_cons, mem_nil. cbn [lo hi]. clear. tauto. }
  unfold dport_in. setoid_rewrite E. clear. tauto.
Qed.

(** ** The default backend *)
Definition default_good (dpeers : option peerset) (dports : option portset) : Prop :=
  some_peers dpeers = true -> exists s q, dpeers = Some s /\ dports = Some q /\ pok reg s /\ ports_good q.
Definition default_at (dpeers : option peerset) (dports : option portset) (pt : conn) : Prop :=
  some_peers dpeers = true /\ exists s q, dpeers = Some s /\ dports = Some q /\ target s q pt.
Lemma wset_bool : forall d v, wset d v -> vbool O v = true.
Proof using R. intros d v [V (x & _ & Hx)]. apply (L_bool _ _ _ L d v V). eauto. Qed.
Lemma default_spec : forall dpeers dports hosts paths, default_good dpeers dports ->
  (some_peers dpeers = true -> opt (wset 6) hosts /\ opt (wset 7) paths) ->
  let c := default_conns std_dom reg cl dpeers dports hosts paths in
  ok c /\ regular_conns c /\ forall pt, space pt -> (pt @ c <-> default_at dpeers dports pt /\ opt (val_mem (pt 6)) hosts /\ opt (val_mem (pt 7)) paths).
Proof using R Hp.
  intros dpeers dports hosts paths G I c. unfold c, default_conns. fold A. unfold default_at. destruct (some_peers dpeers) eqn:S.
  - destruct (G S) as (s & q & -> & -> & Ps & Pq). destruct (I eq_refl) as [Ih Iw].
    assert (Keep : forall d o, opt (wset d) o -> match o with Some v => if vbool O v then Some v else None | None => None end = o).
    { intros d [v|] H; auto. cbn [opt] in H. rewrite (wset_bool d v H). reflexivity. }
    fold O. cbv zeta. rewrite (Keep 6 hosts Ih), (Keep 7 paths Iw). destruct (cube_spec s q hosts paths Ps Pq Ih Iw) as (C1 & C2 & C3). split; [exact C1|]. split; [exact C2|].
    intros pt Sp. refine (iff_trans (C3 pt Sp) _). split.
    + intros (T & H). split; [|exact H]. split; [reflexivity|]. exists s, q. auto.
    + intros ((_ & s' & q' & E1 & E2 & T) & H). injection E1 as <-. injection E2 as <-. auto.
  - destruct empty_spec as (C1 & C2 & C3). split; [exact C1|]. split; [exact C2|]. intros pt _. split; [intros H; destruct (C3 pt H)|]. intros ((E & _) & _). discriminate.
Qed.

(** ** The paths of a rule *)
Definition path_good (p : ipath) : Prop := exists s q, ip_peers p = Some s /\ ip_ports p = Some q /\ pok reg s /\ ports_good q.
Definition path_at (p : ipath) (pt : conn) : Prop := exists s q, ip_peers p = Some s /\ ip_ports p = Some q /\ target s q pt.
Lemma steps_spec : forall hosts vps k c all st, opt (wset 6) hosts -> Forall (fun vp => wset 7 (fst vp) /\ path_good (snd vp)) vps ->
  ok c -> regular_conns c -> opt (wset 7) all -> fold_left (path_step std_dom reg cl hosts) vps (Some (k, c, all)) = Some st ->
  exists k' c' all', st = (k', c', all') /\ ok c' /\ regular_conns c' /\
    (forall pt, space pt -> (pt @ c' <-> pt @ c \/ opt (val_mem (pt 6)) hosts /\ exists v p, In (v, p) vps /\ val_mem (pt 7) v /\ path_at p pt)) /\
    opt (wset 7) all' /\ (vps <> [] -> all' <> None) /\
    forall x, (exists u, all' = Some u /\ val_mem x u) <-> (exists u, all = Some u /\ val_mem x u) \/ exists v p, In (v, p) vps /\ val_mem x v.
Proof using R Hp.
  intros hosts vps. induction vps as [|[v p] vps IH]; intros k c all st Hh F Oc Rc Ha E.
  - cbn [fold_left] in E. injection E as <-. exists k, c, all. split; [reflexivity|]. split; auto. split; auto. split; [|split; [exact Ha|split; [congruence|]]].
    + intros pt _. split; auto. intros [H|(_ & v & p & [] & _)]; auto.
    + intros x. split; auto. intros [H|(v & p & [] & _)]; auto.
  - inversion F as [|? ? [Wv (s & q & Es & Eq & Ps & Pq)] F']; subst. cbn [fst snd] in *. cbn [fold_left] in E.
    assert (St : path_step std_dom reg cl hosts (Some (k, c, all)) (v, p) =
      Some (CDict None (Some s) None None (Some q) None hosts (Some v) None None, c_or A c (mk (CDict None (Some s) None None (Some q) None hosts (Some v) None None)),
            Some (match all with Some u => vor O u v | None => v end))).
    { unfold path_step. cbn [bind]. rewrite Es, Eq. cbn [andb or_keep]. fold A. do 3 f_equal. destruct all as [u|]; auto. fold O. rewrite (wset_bool 7 u Ha). reflexivity. }
    rewrite St in E. clear St. destruct (cube_spec s q hosts (Some v) Ps Pq Hh Wv) as (C1 & C2 & C3). cbv zeta in C1, C2, C3.
    destruct (or_spec c _ Oc C1 Rc C2) as (D1 & D2 & D3).
    assert (Ha' : opt (wset 7) (Some (match all with Some u => vor O u v | None => v end))).
    { cbn [opt]. destruct all as [u|]; [|exact Wv]. destruct Ha as [Vu (x & Nx & Hx)], Wv as [Vv _]. split; [apply (L_or_valid _ _ _ L); auto|]. exists x. split; auto. apply (L_or _ _ _ L 7); auto. }
    destruct (IH _ _ _ st Hh F' D1 D2 Ha' E) as (k' & c' & all' & -> & I1 & I2 & I3 & I4 & I5 & I6). exists k', c', all'. split; [reflexivity|]. split; auto. split; auto. split; [|split; [exact I4|split]].
    + intros pt Sp. refine (iff_trans (I3 pt Sp) _). rewrite (D3 pt Sp), (C3 pt Sp). cbn [opt In]. split.
      * intros [[H|(T & H6 & H7)]|(H6 & v' & p' & Hin & H7 & T)]; [left; exact H|right; split; [exact H6|]; exists v, p; split; [left; reflexivity|]; split; [exact H7|]; exists s, q; auto|].
        right. split; [exact H6|]. exists v', p'. auto.
      * intros [H|(H6 & v' & p' & [Hin|Hin] & H7 & T)]; [auto| |right; split; [exact H6|]; exists v', p'; auto].
        injection Hin as <- <-. destruct T as (s' & q' & E1 & E2 & T). rewrite Es in E1. rewrite Eq in E2. injection E1 as <-. injection E2 as <-. left. right. auto.
    + intros _. destruct vps as [|a vps]; [cbn [fold_left] in E; injection E as _ _ E; rewrite <- E; discriminate|]. apply I5. discriminate.
    + intros x. rewrite I6. cbn [In]. split.
      * intros [(u & Eu & Hu)|(v' & p' & Hin & Hv)]; [|right; exists v', p'; auto]. injection Eu as <-. destruct all as [u|]; [|right; exists v, p; auto].
        destruct Ha as [Vu _], Wv as [Vv _]. apply (L_or _ _ _ L 7 u v x Vu Vv) in Hu as [Hu|Hu]; [left; eauto|right; exists v, p; auto].
      * intros [(u & -> & Hu)|(v' & p' & [Hin|Hin] & Hv)].
        -- left. exists (vor O u v). split; auto. destruct Ha as [Vu _], Wv as [Vv _]. apply (L_or _ _ _ L 7 u v x Vu Vv). auto.
        -- injection Hin as <- <-. left. eexists. split; [reflexivity|]. destruct all as [u|]; auto. destruct Ha as [Vu _], Wv as [Vv _]. apply (L_or _ _ _ L 7 u v x Vu Vv). auto.
        -- right. exists v', p'. auto.
Qed.
(** After the segregation. *)
Lemma segregate_in : forall ps v p, In (v, p) (segregate std_dom dfa ps) <-> exists i, nth_error ps i = Some p /\ v = segregate_one std_dom dfa ps i p.
Proof using.
  intros ps v p. unfold segregate. rewrite in_map_iff.
  assert (G : forall (l : list ipath) n i q, In (i, q) (combine (seq n (List.length l)) l) <-> exists j, i = n + j /\ nth_error l j = Some q).
  { induction l as [|x l IH]; intros n i q; cbn [List.length seq combine In]; [split; [intros []|intros (j & _ & E); destruct j; discriminate]|]. rewrite IH. split.
    - intros [E|(j & -> & E)]; [injection E as <- <-; exists 0; split; [lia|reflexivity]|exists (S j); split; [lia|exact E]].
    - intros (j & -> & E). destruct j as [|j]; [injection E as ->; left; f_equal; lia|right; exists j; split; [lia|exact E]]. }
  split.
  - intros ([i q] & E & Hin). cbn [fst snd] in E. injection E as <- <-. apply G in Hin as (j & -> & Ej). exists j. split; auto.
  - intros (i & Ei & ->). exists (i, p). split; [reflexivity|]. apply G. exists i. auto.
Qed.
Lemma segregate_wset : forall ps i p, Forall path_wf ps -> Forall (path_reads code dfa) ps -> distinct_prefixes ps -> nth_error ps i = Some p -> wset 7 (segregate_one std_dom dfa ps i p).
Proof using CO.
  intros ps i p F Rd D Ei. pose proof (nth_error_In _ _ Ei) as Ip. pose proof (proj1 (Forall_forall _ _) F p Ip) as Pp. pose proof (proj1 (Forall_forall _ _) Rd p Ip) as Rp.
  destruct (route_word ps p F Ip) as (w & Hw & Rw). split.
  - destruct (ip_exact p) eqn:Ex; [unfold segregate_one; rewrite Ex; apply (path_dfa_spec code dfa p Pp Rp)|exact (proj1 (segregate_one_mem code dfa ps i p w F Rd Pp Rp Hw Ex))].
  - exists (code w). split; [apply CO; destruct Hw as [_ Hw]; destruct (Hw eq_refl) as (t & ->); discriminate|]. apply (C42_most_specific_path code dfa ps i p w F Rd D Ei Hw). exact Rw.
Qed.
Definition rule_means (dpeers : option peerset) (dports : option portset) (c : hc val) (hosts : option val) (ps : list ipath) : Prop :=
  ok c /\ regular_conns c /\ forall pt w, space pt -> pt 7 = code w -> domain_word 7 w ->
    (pt @ c <-> opt (val_mem (pt 6)) hosts /\ ((exists p, In p ps /\ routes ps p w /\ path_at p pt) \/ (forall p, In p ps -> ~ covers p w) /\ default_at dpeers dports pt)).
Lemma paths_spec : forall dpeers dports hosts ps k c all, opt (wset 6) hosts -> default_good dpeers dports -> ps <> [] ->
  Forall path_wf ps -> Forall (path_reads code dfa) ps -> distinct_prefixes ps -> Forall path_good ps ->
  (some_peers dpeers = true -> forall p, In p ps -> ip_exact p = false -> ip_text p <> []) ->
  fold_left (path_step std_dom reg cl hosts) (segregate std_dom dfa ps) (Some (CDict None None None None None None hosts None None None, c_empty A, None)) = Some (k, c, all) ->
  rule_means dpeers dports (c_or A c (default_conns std_dom reg cl dpeers dports hosts (option_map (vsub O (std_dom 7)) all))) hosts ps.
Proof using R Hp CO.
  intros dpeers dports hosts ps k c all Hh Dg Ne F Rd D Pg NR E. destruct empty_spec as (E1 & E2 & E3).
  assert (Fs : Forall (fun vp => wset 7 (fst vp) /\ path_good (snd vp)) (segregate std_dom dfa ps)).
  { apply Forall_forall. intros [v p] Hin. apply segregate_in in Hin as (i & Ei & ->). cbn [fst snd]. split; [apply segregate_wset; auto|]. apply (proj1 (Forall_forall _ _) Pg). exact (nth_error_In _ _ Ei). }
  destruct (steps_spec hosts _ _ _ None _ Hh Fs E1 E2 Logic.I E) as (k' & c' & all' & Est & C1 & C2 & C3 & C4 & C5 & C6). injection Est as <- <- <-.
  assert (NS : segregate std_dom dfa ps <> []) by (destruct ps; [congruence|discriminate]). specialize (C5 NS). destruct all as [u|]; [clear C5|congruence]. cbn [option_map].
  destruct C4 as [Vu _].
  assert (Mu : forall w, domain_word 7 w -> (val_mem (code w) u <-> exists p, In p ps /\ covers p w)).
  { intros w Hw. assert (X : val_mem (code w) u <-> exists u', Some u = Some u' /\ val_mem (code w) u') by (split; [eauto|intros (u' & Q & H); injection Q as <-; exact H]). rewrite X, C6. clear X. split.
    - intros [(u' & Q & _)|(v & p & Hin & Hv)]; [discriminate|]. apply segregate_in in Hin as (i & Ei & ->). apply (C42_most_specific_path code dfa ps i p w F Rd D Ei Hw) in Hv as [Cv _]. exists p. split; [exact (nth_error_In _ _ Ei)|exact Cv].
    - intros H. destruct (route_exists ps w H) as (p & Ip & Rp). apply In_nth_error in Ip as (i & Ei). right. exists (segregate_one std_dom dfa ps i p), p. split; [apply segregate_in; eauto|].
      apply (C42_most_specific_path code dfa ps i p w F Rd D Ei Hw). exact Rp. }
  assert (Vr : val_valid std_dom 7 (vsub O (std_dom 7) u)) by (apply (L_sub_valid _ _ _ L); auto; apply (L_dom _ _ _ L)).
  assert (Mr : forall x, val_mem x (vsub O (std_dom 7) u) <-> ~ val_mem x u).
  { intros x. refine (iff_trans (L_sub _ _ _ L 7 _ _ x (L_dom _ _ _ L 7) Vu) _). pose proof (dom7_all x) as H7. split; [intros [_ H]; exact H|]. intros H. split; [exact H7|exact H]. }
  assert (Wr : some_peers dpeers = true -> opt (wset 6) hosts /\ opt (wset 7) (Some (vsub O (std_dom 7) u))).
  { intros Sd. split; [exact Hh|]. split; [exact Vr|]. destruct (free_word ps F (NR Sd)) as (w & Hw & Nw). exists (code w). split; [apply CO; destruct Hw as [_ Hw]; destruct (Hw eq_refl) as (t & ->); discriminate|].
    apply Mr. intros H. apply (Mu w Hw) in H as (p & Ip & Cp). exact (Nw p Ip Cp). }
  destruct (default_spec dpeers dports hosts (Some (vsub O (std_dom 7) u)) Dg Wr) as (D1 & D2 & D3).
  destruct (or_spec c _ C1 D1 C2 D2) as (X1 & X2 & X3). split; [exact X1|]. split; [exact X2|]. intros pt w Sp E7 Hw. refine (iff_trans (X3 pt Sp) _). rewrite (C3 pt Sp), (D3 pt Sp). cbn [opt]. rewrite E7, Mr, (Mu w Hw). split.
  - intros [[H|(H6 & v & p & Hin & Hv & T)]|(T & H6 & H7)]; [destruct (E3 pt H)| |].
    + split; [exact H6|]. left. exists p. apply segregate_in in Hin as (i & Ei & ->). split; [exact (nth_error_In _ _ Ei)|]. split; [|exact T]. exact (proj1 (C42_most_specific_path code dfa ps i p w F Rd D Ei Hw) Hv).
    + split; [exact H6|]. right. split; [|exact T]. intros p Ip Cp. apply H7. eauto.
  - intros (H6 & [(p & Ip & Rp & T)|(H7 & T)]).
    + left. right. split; [exact H6|]. apply In_nth_error in Ip as (i & Ei). exists (segregate_one std_dom dfa ps i p), p. split; [apply segregate_in; eauto|]. split; [|exact T].
      apply (C42_most_specific_path code dfa ps i p w F Rd D Ei Hw). exact Rp.
    + right. split; [exact T|]. split; [exact H6|]. intros (p & Ip & Cp). exact (H7 p Ip Cp).
Qed.
(** A rule without paths. *)
Lemma no_paths_spec : forall dpeers dports hosts, opt (wset 6) hosts -> default_good dpeers dports ->
  rule_means dpeers dports (c_or A (c_empty A) (default_conns std_dom reg cl dpeers dports hosts None)) hosts [].
Proof using R Hp.
  intros dpeers dports hosts Hh Dg. destruct empty_spec as (E1 & E2 & E3). destruct (default_spec dpeers dports hosts None Dg (fun _ => conj Hh Logic.I)) as (D1 & D2 & D3).
  destruct (or_spec _ _ E1 D1 E2 D2) as (X1 & X2 & X3). split; [exact X1|]. split; [exact X2|]. intros pt w Sp _ _. refine (iff_trans (X3 pt Sp) _). rewrite (D3 pt Sp). cbn [opt In]. split.
  - intros [H|(T & H6 & _)]; [destruct (E3 pt H)|]. split; [exact H6|]. right. split; [intros p []|exact T].
  - intros (H6 & [(p & [] & _)|(_ & T)]). right. auto.
Qed.

(** ** All rules *)
Lemma rules_spec : forall ks svcs ns dpeers dports l ms h, default_good dpeers dports ->
  Forall2 (fun y m => exists c, parse_rule std_dom reg cl ks svcs dfa ns dpeers dports y = Some (c, fst m) /\ rule_means dpeers dports c (fst m) (snd m) /\ opt (wset 6) (fst m)) l ms ->
  (some_peers dpeers = true -> exists x, x <> 0%Z /\ forall m, In m ms -> ~ opt (val_mem x) (fst m)) ->
  parse_rules std_dom reg cl ks svcs dfa ns dpeers dports l = Some h ->
  ok h /\ regular_conns h /\ forall pt w, space pt -> pt 7 = code w -> domain_word 7 w ->
    (pt @ h <-> (exists m, In m ms /\ opt (val_mem (pt 6)) (fst m) /\
                  ((exists p, In p (snd m) /\ routes (snd m) p w /\ path_at p pt) \/ (forall p, In p (snd m) -> ~ covers p w) /\ default_at dpeers dports pt)) \/
                (forall m, In m ms -> ~ opt (val_mem (pt 6)) (fst m)) /\ default_at dpeers dports pt).
Proof using R Hp.
  intros ks svcs ns dpeers dports l ms h Dg F NE E. destruct empty_spec as (E1 & E2 & E3).
  pose (Mean := fun (m : option val * list ipath) (pt : conn) (w : word) => opt (val_mem (pt 6)) (fst m) /\
    ((exists p, In p (snd m) /\ routes (snd m) p w /\ path_at p pt) \/ (forall p, In p (snd m) -> ~ covers p w) /\ default_at dpeers dports pt)).
  assert (Fd : forall x, val_mem x (std_dom 6)) by (intros x H; exact (proj1 (mem_nil x) H)).
  assert (G : forall l ms, Forall2 (fun y m => exists c, parse_rule std_dom reg cl ks svcs dfa ns dpeers dports y = Some (c, fst m) /\ rule_means dpeers dports c (fst m) (snd m) /\ opt (wset 6) (fst m)) l ms ->
    forall c all st, ok c -> regular_conns c -> opt (val_valid std_dom 6) all ->
    fold_left (rule_step std_dom reg cl ks svcs dfa ns dpeers dports) l (Some (c, all)) = Some st ->
    ok (fst st) /\ regular_conns (fst st) /\
    (forall pt w, space pt -> pt 7 = code w -> domain_word 7 w -> (pt @ fst st <-> pt @ c \/ exists m, In m ms /\ Mean m pt w)) /\
    opt (val_valid std_dom 6) (snd st) /\
    forall x, (exists u, snd st = Some u /\ val_mem x u) <-> (exists u, all = Some u /\ val_mem x u) \/ exists m, In m ms /\ opt (val_mem x) (fst m)).
  { clear l ms h F NE E. intros l ms F. induction F as [|y m l ms (cy & Ey & (Oy & Ry & My) & Wy) F IH]; intros c all st Oc Rc Va E.
    - cbn [fold_left] in E. injection E as <-. cbn [fst snd]. split; auto. split; auto. split; [|split; [exact Va|]].
      + intros pt w _ _ _. split; auto. intros [H|(m & [] & _)]; auto.
      + intros x. split; auto. intros [H|(m & [] & _)]; auto.
    - cbn [fold_left] in E. destruct (or_spec c cy Oc Oy Rc Ry) as (X1 & X2 & X3).
      pose (al := match fst m with Some v => if vbool O v then Some (match all with Some u => if vbool O u then vor O u v else v | None => v end) else Some (std_dom 6) | None => Some (std_dom 6) end).
      assert (St : rule_step std_dom reg cl ks svcs dfa ns dpeers dports (Some (c, all)) y = Some (c_or A c cy, al)) by (unfold rule_step; cbn [bind]; rewrite Ey; reflexivity).
      rewrite St in E. clear St.
      assert (Al : opt (val_valid std_dom 6) al /\ forall x, (exists u, al = Some u /\ val_mem x u) <-> (exists u, all = Some u /\ val_mem x u) \/ opt (val_mem x) (fst m)).
      { unfold al. destruct (fst m) as [v|]; cbn [opt] in *.
        - rewrite (wset_bool 6 v Wy). destruct Wy as [Vv _]. destruct all as [u|]; cbn [opt] in *.
          + destruct (vbool O u) eqn:Bu.
            * split; [apply (L_or_valid _ _ _ L); auto|]. intros x. split.
              -- intros (u' & Q & H). injection Q as <-. apply (L_or _ _ _ L 6 u v x Va Vv) in H as [H|H]; eauto.
              -- intros H. exists (vor O u v). split; auto. apply (L_or _ _ _ L 6 u v x Va Vv). destruct H as [(u' & Q & H)|H]; [injection Q as <-|]; auto.
            * split; [exact Vv|]. intros x. split; [intros (u' & Q & H); injection Q as <-; auto|]. intros [(u' & Q & H)|H]; [|eauto]. injection Q as <-. exfalso.
              assert (vbool O u = true); [|congruence]. apply (L_bool _ _ _ L 6 u Va). eauto.
          + split; [exact Vv|]. intros x. split; [intros (u' & Q & H); injection Q as <-; auto|]. intros [(u' & Q & _)|H]; [discriminate|eauto].
        - split; [apply (L_dom _ _ _ L)|]. intros x. split; auto. intros _. exists (std_dom 6). split; auto. }
      destruct Al as [Al1 Al2]. destruct (IH _ _ _ X1 X2 Al1 E) as (I1 & I2 & I3 & I4 & I5). split; auto. split; auto. split; [|split; [exact I4|]].
      + intros pt w Sp E7 Hw. refine (iff_trans (I3 pt w Sp E7 Hw) _). rewrite (X3 pt Sp), (My pt w Sp E7 Hw). cbn [In]. split.
        * intros [[H|H]|(m' & Hm & H)]; [auto| |]; right; [exists m; split; [left; reflexivity|exact H]|exists m'; auto].
        * intros [H|(m' & [<-|Hm] & H)]; [auto| |]; [left; right; exact H|right; exists m'; auto].
      + intros x. rewrite I5, Al2. cbn [In]. split.
        * intros [[H|H]|(m' & Hm & H)]; [auto| |]; right; [exists m; auto|exists m'; auto].
        * intros [H|(m' & [<-|Hm] & H)]; [auto|auto|]. right. exists m'. auto. }
  unfold parse_rules in E. fold A in E. destruct (fold_left _ l _) as [st|] eqn:Ef; [|discriminate]. cbn [bind] in E.
  destruct (G l ms F _ _ st E1 E2 (Logic.I : opt _ None) Ef) as (G1 & G2 & G3 & G4 & G5).
  assert (G3' : forall pt w, space pt -> pt 7 = code w -> domain_word 7 w -> (pt @ fst st <-> exists m, In m ms /\ Mean m pt w)).
  { intros pt w Sp E7 Hw. refine (iff_trans (G3 pt w Sp E7 Hw) _). split; auto. intros [H|H]; auto. destruct (E3 pt H). }
  destruct (some_peers dpeers) eqn:Sd.
  - destruct (NE eq_refl) as (x & Nx & Hx). destruct (snd st) as [hosts|] eqn:Es; [|discriminate]. injection E as <-. cbn [opt] in G4.
    assert (Mh : forall x, val_mem x hosts <-> exists m, In m ms /\ opt (val_mem x) (fst m)).
    { intros z. split.
      - intros H. destruct (proj1 (G5 z) (ex_intro _ hosts (conj eq_refl H))) as [(u & Q & _)|Q]; [discriminate|exact Q].
      - intros H. destruct (proj2 (G5 z) (or_intror H)) as (u & Q & Hu). injection Q as <-. exact Hu. }
    assert (Mr : forall x, val_mem x (vsub O (std_dom 6) hosts) <-> ~ val_mem x hosts).
    { intros z. refine (iff_trans (L_sub _ _ _ L 6 _ _ z (L_dom _ _ _ L 6) G4) _). pose proof (Fd z). split; [intros [_ H']; exact H'|]. intros H'. split; [exact H|exact H']. }
    assert (Wr : wset 6 (vsub O (std_dom 6) hosts)).
    { split; [apply (L_sub_valid _ _ _ L); auto; apply (L_dom _ _ _ L)|]. exists x. split; auto. apply Mr. intros H. apply Mh in H as (m & Hm & H). exact (Hx m Hm H). }
    destruct (default_spec dpeers dports (Some (vsub O (std_dom 6) hosts)) None Dg (fun _ => conj Wr Logic.I)) as (D1 & D2 & D3).
    destruct (or_spec _ _ G1 D1 G2 D2) as (X1 & X2 & X3). split; [exact X1|]. split; [exact X2|]. intros pt w Sp E7 Hw. refine (iff_trans (X3 pt Sp) _). rewrite (D3 pt Sp), (G3' pt w Sp E7 Hw). cbn [opt]. rewrite Mr, Mh. split.
    + intros [H|(T & H6 & _)]; [left; exact H|right]. split; [|exact T]. intros m Hm H. apply H6. eauto.
    + intros [H|(H6 & T)]; [left; exact H|right]. split; [exact T|]. split; [|exact Logic.I]. intros (m & Hm & H). exact (H6 m Hm H).
  - injection E as <-. split; auto. split; auto. intros pt w Sp E7 Hw. refine (iff_trans (G3' pt w Sp E7 Hw) _). split; auto. intros [H|(_ & (Q & _))]; [exact H|congruence].
Qed.
End Parsed.
