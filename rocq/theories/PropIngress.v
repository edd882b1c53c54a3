(** * C60: an Ingress document lets the ingress controller reach exactly the backends of its requests. *)
From Coq Require Import ZArith List Bool Arith Lia String Ascii.
From Verif Require Import IntervalModel IntervalFacts HyperModel HyperFacts HyperOps HyperDims HyperTop HyperInst PropHyperCube ConnModel ConnFacts TextModel PortProtoModel
                          PeerModel PeerFacts PeerSetFacts PolicyModel PolicyLaws PolicyFacts LayerFacts OrderFacts ConnAlg StdDims PropLayers YamlModel ClusterModel ConnDict
                          SelectorFacts CalicoSelectorSets PropSelectors K8sParserModel K8sParserFacts CalicoSelectorModel CalicoParserModel IstioValueModel PropIstioValues IstioRuleFacts IstioParserModel PropIstioParser
                          ServiceModel PropServices IngressModel IngressWords PropIngressPaths GatewayFacts IngressFacts IngressDocs.
Import ListNotations.
Local Open Scope string_scope.
Local Open Scope list_scope.
Local Open Scope nat_scope.
Local Opaque min_pod_index max_pod_index min_ipv6_index max_ipv6_index max_ipv4_index v4max v6min v6max.

(** ** The document *)
Definition ingress_doc (y : yaml) (name ns : string) (d : yaml) (rules : list yaml) : Prop :=
  exists m md sp, y = YMap m /\ yget m "kind" = YStr "Ingress" /\ yget m "metadata" = YMap md /\ yget md "name" = YStr name /\ ap_ns md ns /\
    yget m "spec" = YMap sp /\ yget sp "defaultBackend" = d /\ (yget sp "rules" = YList rules \/ yget sp "rules" = YNull /\ rules = []).
Lemma ingress_doc_fn : forall y n s d r n' s' d' r', ingress_doc y n s d r -> ingress_doc y n' s' d' r' -> n' = n /\ s' = s /\ d' = d /\ r' = r.
Proof.
  intros y n s d r n' s' d' r' (m & md & sp & -> & _ & E2 & E3 & E4 & E5 & E6 & E7) (m' & md' & sp' & E & _ & F2 & F3 & F4 & F5 & F6 & F7). injection E as <-.
  rewrite E2 in F2. injection F2 as <-. rewrite E3 in F3. injection F3 as <-. rewrite E5 in F5. injection F5 as <-. rewrite E6 in F6.
  unfold ap_ns in E4, F4. split; auto. split; [|split; auto].
  - destruct E4 as [[A1 A2]|[A1 A2]], F4 as [[B1 B2]|[B1 B2]]; destruct A1 as [A1|A1] || idtac; destruct B1 as [B1|B1] || idtac; congruence.
  - destruct E7 as [E7|[E7 E8]], F7 as [F7|[F7 F8]]; congruence.
Qed.
(** The pods of services with 'ingress-nginx' in their names. *)
Definition controller (cl : cluster) (ks : list k8s_service) (q : peer) : Prop :=
  exists k pods, last_service ks k /\ contains_str "ingress-nginx" (ks_ns k ++ "/" ++ ks_name k)%string = true /\ target_pods cl k = Some pods /\ In q pods.

(** ** Hosts *)
Section Hosts.
Context (code : word -> Z) (dfa : list ascii -> val) (CO : code_ok code).
Notation wset := (word_set std_dom).
Definition host_benign (hv : yaml) : Prop := hv = YNull \/ exists s, hv = YStr s /\
  (s = "*" \/ s <> "" /\ (over_alphabet (text s) \/ exists p, text s = "*"%char :: p /\ over_alphabet p) /\ forall t, host_regex s = Some t -> reads code dfa 6 t).
(** What stands for a wildcard in this host has a dot, or is a text of letters, digits and underscores. *)
Definition fair (hv : yaml) (h : word) : Prop := forall s p x, hv = YStr s -> s <> "*" -> text s = "*"%char :: p -> h = x ++ p ->
  In "."%char x \/ x <> [] /\ Forall (fun c => word_char c = true) x.
Definition dashes (n : nat) : word := repeat "-"%char n.
Lemma dashes_alphabet : forall n, over_alphabet (dashes n).
Proof using. induction n; constructor; auto. Qed.
Lemma host_cases : forall s, s <> "*" -> over_alphabet (text s) \/ (exists p, text s = "*"%char :: p /\ over_alphabet p) -> over_alphabet (text s) \/ exists p, p <> [] /\ text s = "*"%char :: p /\ over_alphabet p.
Proof using.
  intros s Ns [H|(p & E & H)]; auto. right. exists p. split; auto. intros ->. apply Ns. clear - E. destruct s as [|c s]; [discriminate|]. injection E as -> E. destruct s; [reflexivity|discriminate].
Qed.
Lemma host_spec : forall hv hosts, parse_host std_dom dfa hv = Some hosts -> host_benign hv ->
  opt (wset 6) hosts /\ (forall h, over_alphabet h -> fair hv h -> (opt (val_mem (code h)) hosts <-> host_is hv h)) /\
  (hv <> YNull -> hv <> YStr "*" -> exists k, forall n, k < n -> ~ opt (val_mem (code (dashes n))) hosts).
Proof using CO.
  intros hv hosts E B. assert (Fd : forall x, val_mem x (std_dom 6)) by (intros x H; exact (proj1 (mem_nil x) H)).
  destruct B as [->|(s & -> & B)].
  - injection E as <-. split; [exact Logic.I|]. split; [intros h _ _; split; [intros _; left; reflexivity|intros _; exact Logic.I]|congruence].
  - cbn [parse_host] in E. destruct (String.eqb_spec s "*") as [Q|Ns].
    + subst s. injection E as <-. split; [split; [apply (L_dom _ _ _ std_vals)|exists 1%Z; split; [discriminate|apply Fd]]|]. split; [|congruence]. intros h _ _. cbn [opt]. split; [intros _; right; left; reflexivity|intros _; apply Fd].
    + destruct B as [B|(Ne & B & Rd)]; [congruence|]. destruct (host_regex s) as [t|] eqn:Et; [|discriminate]. cbn [option_map] in E. injection E as <-. destruct (Rd t eq_refl) as [Vt Mt].
      apply (host_cases s Ns) in B as [B|(p & Np & Ep & B)].
      * destruct (host_exact s t Et B) as (r & Er & M). assert (M' : forall h, over_alphabet h -> (val_mem (code h) (dfa t) <-> h = text s)).
        { intros h Hh. rewrite (Mt r h); auto. split; [exact Hh|discriminate]. }
        cbn [opt]. split; [|split].
        -- split; [exact Vt|]. exists (code (text s)). split; [apply CO; intros X; apply Ne; destruct s; [reflexivity|discriminate]|]. apply M'; auto.
        -- intros h Hh _. rewrite (M' h Hh). split.
           ++ intros ->. right. right. right. exists s. split; auto. split; auto. apply no_star_alphabet. exact B.
           ++ intros [X|[X|[(s' & p & x & X & X1 & _)|(s' & X & _ & ->)]]]; [discriminate|injection X as X; congruence| |injection X as <-; reflexivity].
              injection X as <-. exfalso. apply (no_star_alphabet _ B). rewrite X1. left. reflexivity.
        -- intros _ _. exists (List.length (text s)). intros n Hn H. apply (M' _ (dashes_alphabet n)) in H. rewrite <- H in Hn. unfold dashes in Hn. rewrite repeat_length in Hn. lia.
      * destruct (host_wildcard s t p Et Ep B) as (r & Er & M). assert (M' : forall h, over_alphabet h -> (val_mem (code h) (dfa t) <-> exists x, h = x ++ p /\ Forall (fun c => word_char c = true) x)).
        { intros h Hh. rewrite (Mt r h); auto. split; [exact Hh|discriminate]. }
        cbn [opt]. split; [|split].
        -- split; [exact Vt|]. exists (code p). split; [apply CO; exact Np|]. apply (M' p B). exists []. split; [reflexivity|constructor].
        -- intros h Hh Fh. rewrite (M' h Hh). split.
           ++ intros (x & -> & Hx). right. right. left. exists s, p, x. split; auto. split; auto. split; auto.
              assert (Nd : ~ In "."%char x) by (intros H; apply (proj1 (Forall_forall _ _) Hx) in H; discriminate H).
              destruct (Fh s p x eq_refl Ns Ep eq_refl) as [X|[X _]]; [destruct (Nd X)|split; auto].
           ++ intros [X|[X|[(s' & p' & x & X & X1 & -> & Lx)|(s' & X & X1 & _)]]]; [discriminate|injection X as X; congruence| |].
              ** injection X as <-. rewrite Ep in X1. injection X1 as <-. exists x. split; auto. destruct (Fh s p x eq_refl Ns Ep eq_refl) as [X|[_ X]]; [destruct Lx as [_ Lx]; destruct (Lx X)|exact X].
              ** injection X as <-. exfalso. apply X1. rewrite Ep. left. reflexivity.
        -- intros _ _. exists (List.length p). intros n Hn H. apply (M' _ (dashes_alphabet n)) in H as (x & E & Hx). destruct x as [|c x].
           ++ cbn [app] in E. rewrite <- E in Hn. unfold dashes in Hn. rewrite repeat_length in Hn. lia.
           ++ inversion Hx as [|? ? Hc' _]; subst. destruct n as [|n]; [lia|]. cbn [dashes repeat app] in E. injection E as E _. subst c. discriminate Hc'.
Qed.
(** Which hosts are read: over the alphabet, with stars only if there is one at the start. *)
Theorem C60_hosts_read : forall s, (exists v, parse_host std_dom dfa (YStr s) = Some v) <->
  Forall (fun c => c = "*"%char \/ alphabet c = true) (text s) /\ (In "*"%char (text s) -> exists t, text s = "*"%char :: t).
Proof using.
  intros s. cbn [parse_host].
  assert (H : (exists t, host_regex s = Some t) <-> Forall (fun c => c = "*"%char \/ alphabet c = true) (text s) /\ (In "*"%char (text s) -> exists t, text s = "*"%char :: t)).
  { unfold host_regex. rewrite starts_replace by discriminate. fold (dotted (text s)). rewrite dotted_star.
    assert (B : forallb (fun c => Ascii.eqb c "*" || alphabet c) (text s) = true <-> Forall (fun c => c = "*"%char \/ alphabet c = true) (text s)).
    { rewrite forallb_forall, Forall_forall. split; intros H c Hc; specialize (H c Hc); rewrite orb_true_iff, Ascii.eqb_eq in *; exact H. }
    destruct (forallb _ (text s)) eqn:F; cbn [negb].
    - destruct (has_star (text s)) eqn:S.
      + apply has_star_In in S. destruct (starts_star (text s)) eqn:T.
        * apply starts_star_spec in T. split; [intros _; split; [apply B; reflexivity|auto]|eauto].
        * split; [intros (t & E); discriminate|]. intros [_ X]. apply X in S. apply starts_star_spec in S. congruence.
      + apply PropIstioValues.has_star_false in S. split; [intros _; split; [apply B; reflexivity|contradiction]|eauto].
    - split; [intros (t & E); discriminate|]. intros [X _]. apply B in X. discriminate. }
  destruct (String.eqb_spec s "*") as [->|Ns].
  - split; [|eauto]. intros _. split; [apply Forall_cons; [left; reflexivity|apply Forall_nil]|exists []; reflexivity].
  - rewrite <- H. split; intros (v & E).
    + destruct (host_regex s) as [t|]; [exists t; reflexivity|discriminate].
    + rewrite E. eexists. reflexivity.
Qed.
Example ex_hosts_read : map (fun s => match parse_host std_dom dfa (YStr s) with Some _ => true | None => false end) ["h.com"; "*.org"; "*.a.*"; "a.*.org"; "a b"] = [true; true; true; false; false].
Proof using. reflexivity. Qed.
End Hosts.

(** ** Documents outside the findings *)
Section Doc.
Context (reg : list peer) (R : reg_ok reg) (cl : cluster) (Hc : cluster_ok cl) (HC : container reg (cl_peers cl)).
Context (Hp : forall p nm n pr, assoc_s nm (cl_ports cl p) = Some (n, pr) -> (1 <= n <= 65535)%Z).
Context (ks : list k8s_service) (svcs : list service) (HS : set_services cl ks = Some svcs).
Context (code : word -> Z) (dfa : list ascii -> val) (CO : code_ok code).
Let K := std_alg reg R.
Let A := cube_ops std_dom std_all reg.
Let W := cube_laws std_dom std_rest reg reg std_peers [Ivl 0 255] K.
Notation space := (a_space std_dom).
Notation from := (a_src reg).
Notation to := (a_dst reg).
Notation ok := (a_ok std_dom std_rest).
Notation wset := (word_set std_dom).
Section Benign.
Context (ns : string) (d : yaml).
(** There is a default backend with pods. *)
Definition has_default : Prop := exists pods p, backend cl ks ns d pods p /\ pods <> [].
Definition rule_benign (y : yaml) : Prop := forall hv es, rule_host y hv -> rule_paths y es ->
  host_benign code dfa hv /\ paths_benign cl ks code dfa ns es /\
  (has_default -> hv <> YNull /\ hv <> YStr "*" /\ forall e p ty b, In e es -> path_of e p ty b -> ty <> "Exact" -> path_elements p <> [[]]).
Definition ingress_benign (rules : list yaml) : Prop :=
  (forall y, In y rules -> rule_benign y) /\ forall pods p, backend cl ks ns d pods p -> pods <> [] -> target_good p.

(** What the parser makes of a rule. *)
Definition read_as (y : yaml) (m : option val * list ipath) : Prop := exists hv es, rule_host y hv /\ rule_paths y es /\ parse_host std_dom dfa hv = Some (fst m) /\
  Forall2 (parsed_as cl ks code dfa ns) es (snd m).
Lemma rule_spec : forall dpeers dports y r, default_good reg dpeers dports -> (some_peers dpeers = true <-> has_default) ->
  parse_rule std_dom reg cl ks svcs dfa ns dpeers dports y = Some r -> rule_benign y ->
  exists m, snd r = fst m /\ read_as y m /\ rule_means reg cl code dpeers dports (fst r) (fst m) (snd m) /\ opt (wset 6) (fst m).
Proof using R Hc HC Hp HS CO.
  intros dpeers dports y r Dg Dh E B. unfold parse_rule in E. destruct (check_fields y _) as [m|] eqn:Em; [|discriminate]. cbn [bind] in E. apply check_fields_map in Em as [-> _].
  destruct (parse_host std_dom dfa (yget m "host")) as [hosts|] eqn:Eh; [|discriminate]. cbn [bind] in E.
  assert (Rh : rule_host (YMap m) (yget m "host")) by (exists m; auto).
  destruct (yget m "http") as [| | | | | |hm] eqn:Eht; try discriminate. destruct (yget hm "paths") as [| | | | |es|] eqn:Epa; try discriminate.
  - assert (Rp : rule_paths (YMap m) []) by (exists m, hm; auto). destruct (B _ _ Rh Rp) as (Bh & _ & _). destruct (host_spec code dfa CO _ _ Eh Bh) as (Wh & _ & _).
    injection E as <-. exists (hosts, []). cbn [fst snd]. split; [reflexivity|]. split; [exists (yget m "host"), []; split; [exact Rh|split; [exact Rp|split; [exact Eh|constructor]]]|]. split; [exact (no_paths_spec reg R cl Hp code dpeers dports hosts Wh Dg)|exact Wh].
  - destruct es as [|x t]; [discriminate|]. set (es := x :: t) in *. assert (Rp : rule_paths (YMap m) es) by (exists m, hm; auto). destruct (B _ _ Rh Rp) as (Bh & Bp & Bd). destruct (host_spec code dfa CO _ _ Eh Bh) as (Wh & _ & _).
    destruct (mapM _ es) as [os|] eqn:Eos; [|discriminate]. cbn [bind] in E. destruct (parse_paths_spec cl ks svcs HS code dfa ns dpeers dports es os Eos (proj1 Bp)) as (ps & Eps & F).
    assert (Nps : ps <> []) by (inversion F; discriminate).
    assert (E' : bind (fold_left (path_step std_dom reg cl hosts) (segregate std_dom dfa ps) (Some (CDict None None None None None None hosts None None None, c_empty A, None))) (fun st =>
        let '(_, c, all) := st in Some (c_or A c (default_conns std_dom reg cl dpeers dports hosts (option_map (vsub (val_ops std_dom) (std_dom 7)) all)), hosts)) = Some r).
    { rewrite Eps in E. destruct ps; [congruence|]. exact E. }
    clear E. destruct (fold_left _ _ _) as [[[k c] all]|] eqn:Ef; [|discriminate]. cbn [bind] in E'. injection E' as <-. cbn [fst snd].
    assert (Fa : forall ip, In ip ps -> path_wf ip /\ path_reads code dfa ip /\ path_good reg ip).
    { intros ip Hi. destruct (forall2_in_r _ _ _ _ F Hi) as (e & _ & P). destruct (parsed_facts reg cl Hc HC ks code dfa ns e ip P) as (X1 & X2 & X3 & _). auto. }
    exists (hosts, ps). cbn [fst snd]. split; [reflexivity|]. split; [exists (yget m "host"), es; auto|]. split; [|exact Wh].
    apply (paths_spec reg R cl Hp code dfa CO dpeers dports hosts ps k c all Wh Dg Nps); auto.
    + apply Forall_forall. intros ip Hi. apply (Fa ip Hi).
    + apply Forall_forall. intros ip Hi. apply (Fa ip Hi).
    + exact (parsed_distinct cl ks code dfa ns es ps F Bp).
    + apply Forall_forall. intros ip Hi. apply (Fa ip Hi).
    + intros Sd ip Hi Ex Et. apply Dh in Sd. destruct (Bd Sd) as (_ & _ & Br). destruct (forall2_in_r _ _ _ _ F Hi) as (e & He & (p & ty & b & pods & sp & q & P & _ & _ & _ & Po & _ & D)).
      assert (Np : p <> []) by (destruct p; [discriminate Po|discriminate]).
      destruct D as [(_ & _ & ->)|(Q & _ & _ & ->)]; [discriminate|]. cbn [ip_text] in Et. apply (Br e p ty b He P Q). rewrite <- (path_elements_spec p Np), Et. reflexivity.
Qed.
Lemma rules_read : forall dpeers dports rules acc st, default_good reg dpeers dports -> (some_peers dpeers = true <-> has_default) -> (forall y, In y rules -> rule_benign y) ->
  fold_left (rule_step std_dom reg cl ks svcs dfa ns dpeers dports) rules (Some acc) = Some st ->
  exists ms, Forall2 read_as rules ms /\
    Forall2 (fun y m => exists c, parse_rule std_dom reg cl ks svcs dfa ns dpeers dports y = Some (c, fst m) /\ rule_means reg cl code dpeers dports c (fst m) (snd m) /\ opt (wset 6) (fst m)) rules ms.
Proof using R Hc HC Hp HS CO.
  intros dpeers dports rules. assert (NN : forall l, fold_left (rule_step std_dom reg cl ks svcs dfa ns dpeers dports) l None = None) by (induction l; cbn; auto).
  induction rules as [|y rules IH]; intros acc st Dg Dh B E; [exists []; split; constructor|]. cbn [fold_left] in E. unfold rule_step at 2 in E. cbn [bind] in E.
  destruct (parse_rule std_dom reg cl ks svcs dfa ns dpeers dports y) as [r|] eqn:Er; [|cbn [bind] in E; rewrite NN in E; discriminate]. cbn [bind] in E.
  destruct (rule_spec dpeers dports y r Dg Dh Er (B y (or_introl eq_refl))) as (m & E1 & R1 & M1 & W1). destruct (IH _ st Dg Dh (fun y' H => B y' (or_intror H)) E) as (ms & F1 & F2).
  exists (m :: ms). split; constructor; auto. exists (fst r). split; [rewrite Er, <- E1; destruct r; reflexivity|]. auto.
Qed.
Lemma host_fn : forall y hv hv', rule_host y hv -> rule_host y hv' -> hv = hv'.
Proof using. intros y hv hv' (m & -> & <-) (m' & E & <-). injection E as <-. reflexivity. Qed.
Lemma paths_fn : forall y es es', rule_paths y es -> rule_paths y es' -> es = es'.
Proof using. intros y es es' (m & hm & -> & E1 & E2) (m' & hm' & E & F1 & F2). injection E as <-. rewrite E1 in F1. injection F1 as <-. destruct E2 as [[E2 ->]|E2], F2 as [[F2 ->]|F2]; congruence. Qed.

(** The connections of the rules. *)
Lemma parsed_rules : forall r rules h, parse_backend ks svcs ns true d = Some r -> ingress_benign rules ->
  parse_rules std_dom reg cl ks svcs dfa ns (fst (fst r)) (snd (fst r)) rules = Some h ->
  ok h /\ regular_conns h /\ forall pt hw w, space pt -> words_at code pt hw w -> (forall y hv, In y rules -> rule_host y hv -> fair hv hw) ->
    (pt @ h <-> ingress_serves cl ks ns d rules hw w (to pt) (pt 4)).
Proof using R Hc HC Hp HS CO.
  intros r rules h Er [B Bd] E. destruct (default_backend reg cl Hc HC ks svcs HS ns d r Er Bd) as (Dg & Dh & Da).
  set (dpeers := fst (fst r)) in *. set (dports := snd (fst r)) in *. clearbody dpeers dports. clear Er r.
  assert (Ef : exists st, fold_left (rule_step std_dom reg cl ks svcs dfa ns dpeers dports) rules (Some (c_empty A, None)) = Some st).
  { unfold parse_rules in E. fold A in E. destruct (fold_left _ rules _) as [st|]; [eauto|discriminate]. }
  destruct Ef as (st & Ef). destruct (rules_read dpeers dports rules _ st Dg Dh B Ef) as (ms & F1 & F2). clear st Ef.
  assert (NE : some_peers dpeers = true -> exists x, x <> 0%Z /\ forall m, In m ms -> ~ opt (val_mem x) (fst m)).
  { intros Sd. apply Dh in Sd.
    assert (X : exists k, forall n m, k < n -> In m ms -> ~ opt (val_mem (code (dashes n))) (fst m)).
    { clear F2 E. revert B. induction F1 as [|y m rules ms (hv & es & Rh & Rp & Eh & _) F1 IH]; intros B; [exists 0; intros n m _ []|].
      destruct (IH (fun y' H => B y' (or_intror H))) as (k & Hk). destruct (B y (or_introl eq_refl) hv es Rh Rp) as (Bh & _ & Bd'). destruct (Bd' Sd) as (N1 & N2 & _).
      destruct (host_spec code dfa CO hv (fst m) Eh Bh) as (_ & _ & X). destruct (X N1 N2) as (k' & Hk'). exists (k + k'). intros n m' Hn [<-|Hm]; [apply Hk'; lia|apply Hk; [lia|exact Hm]]. }
    destruct X as (k & Hk). exists (code (dashes (S k))). split; [apply CO; discriminate|]. intros m Hm. apply Hk; [lia|exact Hm]. }
  destruct (rules_spec reg R cl Hp code dfa ks svcs ns dpeers dports rules ms h Dg F2 NE E) as (O1 & O2 & O3). clear F2 NE E. split; [exact O1|]. split; [exact O2|].
  intros pt hw w Sp ((E6 & Hh) & E7 & Hw) Fh. refine (iff_trans (O3 pt w Sp E7 Hw) _). unfold ingress_serves. rewrite E6.
  assert (HM : forall y m hv, In y rules -> read_as y m -> rule_host y hv -> (opt (val_mem (code hw)) (fst m) <-> host_is hv hw)).
  { intros y m hv Hy (hv' & es & Rh & Rp & Eh & _) Rh'. rewrite (host_fn _ _ _ Rh' Rh). destruct (B y Hy hv' es Rh Rp) as (Bh & _ & _). destruct (host_spec code dfa CO hv' (fst m) Eh Bh) as (_ & X & _).
    apply X; [exact (proj1 Hh)|exact (Fh y hv' Hy Rh)]. }
  assert (HR : forall y m, In y rules -> read_as y m -> (opt (val_mem (code hw)) (fst m) /\
      ((exists p, In p (snd m) /\ routes (snd m) p w /\ path_at reg cl p pt) \/ (forall p, In p (snd m) -> ~ covers p w) /\ default_at reg cl dpeers dports pt) <-> rule_serves cl ks ns d y hw w (to pt) (pt 4))).
  { intros y m Hy Rd. pose proof Rd as (hv & es & Rh & Rp & Eh & F). rewrite (HM y m hv Hy Rd Rh), (Da pt). unfold rule_serves. split.
    - intros (H1 & H2). exists hv, es. split; auto. split; auto. split; auto. destruct H2 as [(ip & Hi & Ri & T)|(N & T)]; [left|right].
      + destruct (forall2_in_r _ _ _ _ F Hi) as (e & He & P). destruct (parsed_facts reg cl Hc HC ks code dfa ns e ip P) as (_ & _ & _ & X). destruct (proj1 (X pt) T) as (p & ty & b & Pe & T').
        exists e, p, ty, b. split; auto. split; [apply (parsed_routes cl ks code dfa ns es (snd m) e ip w F P); exact Ri|]. split; [exact Pe|exact T'].
      + split; auto. intros e He Ce. destruct (forall2_in_l _ _ _ _ F He) as (ip & Hi & P). apply (N ip Hi). apply (parsed_covers cl ks code dfa ns e ip w P). exact Ce.
    - intros (hv' & es' & Rh' & Rp' & H1 & H2). rewrite (host_fn _ _ _ Rh' Rh) in H1. rewrite (paths_fn _ _ _ Rp' Rp) in H2. split; auto. destruct H2 as [(e & p & ty & b & He & Re & Pe & T)|(N & T)]; [left|right].
      + destruct (forall2_in_l _ _ _ _ F He) as (ip & Hi & P). destruct (parsed_facts reg cl Hc HC ks code dfa ns e ip P) as (_ & _ & _ & X). exists ip. split; auto.
        split; [apply (parsed_routes cl ks code dfa ns es (snd m) e ip w F P); exact Re|]. apply X. exists p, ty, b. auto.
      + split; auto. intros ip Hi Ci. destruct (forall2_in_r _ _ _ _ F Hi) as (e & He & P). apply (N e He). apply (parsed_covers cl ks code dfa ns e ip w P). exact Ci. }
  rewrite <- (Da pt). split.
  - intros [(m & Hm & H)|(N & T)]; [left|right].
    + destruct (forall2_in_r _ _ _ _ F1 Hm) as (y & Hy & Rd). exists y. split; auto. apply (HR y m Hy Rd). exact H.
    + split; auto. intros y hv Hy Rh Hm. destruct (forall2_in_l _ _ _ _ F1 Hy) as (m & Im & Rd). apply (N m Im). apply (HM y m hv Hy Rd Rh). exact Hm.
  - intros [(y & Hy & H)|(N & T)]; [left|right].
    + destruct (forall2_in_l _ _ _ _ F1 Hy) as (m & Hm & Rd). exists m. split; auto. apply (HR y m Hy Rd). exact H.
    + split; auto. intros m Im Hm. destruct (forall2_in_r _ _ _ _ F1 Im) as (y & Hy & Rd). pose proof Rd as (hv & es & Rh & _). apply (N y hv Hy Rh). apply (HM y m hv Hy Rd Rh). exact Hm.
Qed.
End Benign.

(** ** The policy *)
Lemma controller_spec : plain (controller_pods svcs) /\ (forall q, In q (controller_pods svcs) <-> controller cl ks q) /\ forall q, In q (controller_pods svcs) -> In q (cl_peers cl).
Proof using Hc HS.
  destruct (C57_services cl ks svcs HS) as [_ M].
  assert (Pl : forall s, In s svcs -> plain (sv_pods s) /\ forall q, In q (sv_pods s) -> In q (cl_peers cl)).
  { intros s Hs. apply M in Hs as (k & pods & _ & Et & ->). cbn [sv_pods]. destruct (target_pods_spec cl Hc k pods Et) as [P1 P2]. split; auto. intros q Hq. apply P2 in Hq. tauto. }
  assert (X : forall l r, (forall s, In s l -> plain (sv_pods s)) -> plain r ->
    let f := fold_left (fun r s => if contains_str "ingress-nginx" (sv_ns s ++ "/" ++ sv_name s)%string then ps_union r (sv_pods s) else r) l r in
    plain f /\ forall q, In q f <-> In q r \/ exists s, In s l /\ contains_str "ingress-nginx" (sv_ns s ++ "/" ++ sv_name s)%string = true /\ In q (sv_pods s)).
  { clear. induction l as [|s l IH]; intros r Pl Pr; cbn [fold_left].
    - split; auto. intros q. split; auto. intros [H|(s & [] & _)]; auto.
    - destruct (contains_str "ingress-nginx" (sv_ns s ++ "/" ++ sv_name s)%string) eqn:Ec.
      + destruct (plain_union r (sv_pods s) Pr (Pl s (or_introl eq_refl))) as [Pu Iu]. destruct (IH _ (fun s' H => Pl s' (or_intror H)) Pu) as [P1 P2]. split; [exact P1|]. intros q. rewrite P2, Iu. split.
        * intros [[H|H]|(s' & H1 & H2)]; [left; auto|right; exists s; cbn [In]; auto|right; exists s'; cbn [In]; auto].
        * intros [H|(s' & [<-|H1] & H2 & H3)]; [auto|auto|right; exists s'; auto].
      + destruct (IH r (fun s' H => Pl s' (or_intror H)) Pr) as [P1 P2]. split; [exact P1|]. intros q. rewrite P2. split.
        * intros [H|(s' & H1 & H2)]; [left; auto|right; exists s'; cbn [In]; auto].
        * intros [H|(s' & [<-|H1] & H2 & H3)]; [auto|congruence|right; exists s'; auto]. }
  destruct (X svcs [] (fun s H => proj1 (Pl s H)) (fun q (H : In q []) => False_ind _ H)) as [P1 P2]. split; [exact P1|]. split.
  - intros q. unfold controller_pods. rewrite P2. unfold controller. split.
    + intros [[]|(s & Hs & H1 & H2)]. apply M in Hs as (k & pods & Lk & Et & ->). exists k, pods. auto.
    + intros (k & pods & Lk & H1 & Et & H2). right. exists (Service (ks_name k) (ks_ns k) pods). split; [apply M; exists k, pods; auto|]. auto.
  - intros q Hq. unfold controller_pods in Hq. apply P2 in Hq as [[]|(s & Hs & _ & H)]. exact (proj2 (Pl s Hs) q H).
Qed.
Notation parse := (ingress_policy std_dom reg cl ks svcs dfa).
Lemma ingress_policy_inv : forall y P, parse y = Some (Some P) ->
  exists name ns d rules r h, ingress_doc y name ns d rules /\ parse_backend ks svcs ns true d = Some r /\
    parse_rules std_dom reg cl ks svcs dfa ns (fst (fst r)) (snd (fst r)) rules = Some h /\
    (if hbool h then allow_rules std_dom reg h (controller_pods svcs) else Some []) = Some (p_egress P) /\
    P = Policy ("Allow policy for Ingress resource " ++ name)%string ns TIngress false true (controller_pods svcs) [] (p_egress P) None Allow.
Proof using.
  intros y P E. unfold ingress_policy in E. match type of E with bind ?e _ = _ => destruct e as [o|] eqn:Eg; [|discriminate] end. cbn [bind] in E.
  destruct o as [[[m name] nsy]|]; [|discriminate].
  unfold parse_generic in Eg. destruct y as [| | | | | |m0]; try discriminate.
  destruct (negb (among _ (yget m0 "kind"))) eqn:Ek; [discriminate|].
  destruct (yget m0 "apiVersion") as [| | | |v| |]; try discriminate; [|destruct (existsb _ _); discriminate|destruct (existsb _ _); discriminate].
  match type of Eg with (if ?b then _ else _) = _ => destruct b; [discriminate|] end. match type of Eg with bind ?e _ = _ => destruct e as [mm|] eqn:Ec; [|discriminate] end. cbn [bind] in Eg.
  apply check_fields_map in Ec as [Em F]. injection Em as <-.
  destruct (check_fields (yget m0 "metadata") metadata_fields) as [md|] eqn:Ed; [|discriminate]. cbn [bind] in Eg.
  apply check_fields_map in Ed as [Ed Fm]. destruct (yget md "name") as [| | | |nm| |] eqn:Enm; try discriminate. injection Eg as <- <- <-.
  apply negb_false_iff in Ek. destruct (yget m0 "kind") as [| | | |kind| |] eqn:Ekd; try discriminate.
  assert (Hkind : kind = "Ingress") by (apply smem_In in Ek; destruct Ek as [<-|[]]; reflexivity). subst kind.
  set (nsy := match assoc_s "namespace" md with Some v0 => v0 | None => YStr "default" end) in *.
  destruct nsy as [| | | |ns| |] eqn:En; try discriminate.
  assert (Hns : ap_ns md (ns_name ns)).
  { unfold nsy in En. unfold ap_ns, yget, ns_name. destruct (assoc_s "namespace" md) as [v0|].
    - subst v0. destruct (String.eqb_spec ns "") as [Q|Q]; [subst ns; right|left]; auto.
    - injection En as <-. right. auto. }
  cbv zeta in E. match type of E with bind ?e _ = _ => destruct e as [sp|] eqn:Es; [|discriminate] end. cbn [bind] in E. apply check_fields_map in Es as [Es _].
  destruct (parse_backend ks svcs (ns_name ns) true (yget sp "defaultBackend")) as [r|] eqn:Er; [|discriminate]. cbn [bind] in E. destruct r as [[dpeers dports] rest] eqn:Err.
  assert (Hl : exists l, (match assoc_s "rules" sp with None => Some [] | Some (YList l) => Some l | Some _ => None end) = Some l /\ (yget sp "rules" = YList l \/ yget sp "rules" = YNull /\ l = [])).
  { unfold yget. destruct (assoc_s "rules" sp) as [[| | | | |l|]|]; try discriminate; [exists l|exists []]; auto. }
  destruct Hl as (l & El & Hl). rewrite El in E. cbn [bind] in E.
  destruct (parse_rules std_dom reg cl ks svcs dfa (ns_name ns) dpeers dports l) as [h|] eqn:Eh; [|discriminate]. cbn [bind] in E.
  match type of E with bind ?e _ = _ => destruct e as [rs|] eqn:Ers; [|discriminate] end. cbn [bind] in E. injection E as <-.
  exists nm, (ns_name ns), (yget sp "defaultBackend"), l, r, h. subst r. cbn [fst snd p_egress]. split; [|auto].
  exists m0, md, sp. repeat (split; [assumption||reflexivity|]). exact Hl.
Qed.
(** ** C60 *)
Theorem C60_ingress_policy : forall y P, parse y = Some (Some P) ->
  exists name ns d rules, ingress_doc y name ns d rules /\ p_name P = ("Allow policy for Ingress resource " ++ name)%string /\ p_ns P = ns /\ p_kind P = TIngress /\
    p_affects_in P = false /\ p_affects_eg P = true /\ p_ingress P = [] /\ p_action P = Allow /\
    (forall q, In q (p_selected P) <-> controller cl ks q) /\
    (ingress_benign ns d rules -> policy_wf std_dom std_rest reg P /\ confined std_dom reg (cl_peers cl) P /\ (forall r, In r (p_egress P) -> r_action r = Allow) /\
      forall pt h w, space pt -> words_at code pt h w -> h <> [] -> (forall x hv, In x rules -> rule_host x hv -> fair hv h) ->
        (some_rule (p_egress P) pt <-> pt_in (from pt) (p_selected P) /\ pt 2 = 6%Z /\ ingress_serves cl ks ns d rules h w (to pt) (pt 4))).
Proof using R Hc HC Hp HS CO.
  intros y P E. destruct (ingress_policy_inv y P E) as (name & ns & d & rules & r & h & D & Er & Eh & Ea & EP). exists name, ns, d, rules. split; [exact D|].
  destruct controller_spec as (Cp & Ci & Ck). assert (Ps : pok reg (controller_pods svcs)) by exact (plain_pok cl reg HC _ Cp Ck).
  set (rs := p_egress P) in *. rewrite EP. cbn [p_name p_ns p_kind p_affects_in p_affects_eg p_ingress p_action p_selected p_egress]. repeat (split; [reflexivity|]). split; [exact Ci|].
  intros B. destruct (parsed_rules ns d r rules h Er B Eh) as (O1 & O2 & O3).
  assert (S : (forall r, In r rs -> ok (r_props r) /\ regular_conns (r_props r) /\ r_action r = Allow /\ forall pt, space pt -> pt @ r_props r -> pt_in (from pt) (controller_pods svcs) /\ pt 2 = 6%Z) /\
    (forall pt, space pt -> some_rule rs pt -> exists q, space q /\ agrees pt q /\ q @ h) /\
    (forall pt, space pt -> pt 6 <> 0%Z -> pt 7 <> 0%Z -> pt_in (from pt) (controller_pods svcs) -> pt 2 = 6%Z -> (exists q, space q /\ agrees pt q /\ q @ h) -> some_rule rs pt)).
  { destruct (hbool h) eqn:Hb; [exact (allow_rules_spec reg R h _ rs O1 Ps Ea)|]. injection Ea as <-. split; [intros ? []|]. split; [intros pt _ (r0 & [] & _)|].
    intros pt _ _ _ _ _ (q & Sq & _ & Hq). exfalso. assert (X : hbool h = true); [|congruence]. apply (l_bool _ _ _ _ _ _ _ _ _ W h O1). exists q. auto. }
  destruct S as (S1 & S2 & S3).
  split; [apply policy_wf_regular; cbn [p_ingress p_egress p_selected app]; [|exact Ps]; intros r0 Hr; destruct (S1 r0 Hr) as (X1 & X2 & _); split; [exact X1|destruct X2; auto]|].
  split.
  { unfold confined. cbn [p_ingress p_egress p_selected]. split; [intros r0 pt _ []|]. split; [intros r0 pt Sp Hr Hm; apply (S1 r0 Hr); auto|].
    intros x Hx. apply (plain_pt _ _ Cp) in Hx as (q & Hq & k & i & -> & ->). exact (Ck _ Hq). }
  split; [intros r0 Hr; apply (S1 r0 Hr)|]. intros pt hw w Sp Wd Nh Fh. split.
  - intros H. split; [|split].
    + destruct H as (r0 & Hr & Hm). apply (S1 r0 Hr); auto.
    + destruct H as (r0 & Hr & Hm). apply (S1 r0 Hr); auto.
    + destruct (S2 pt Sp H) as (q & Sq & Ag & Hq).
      assert (Wq : words_at code q hw w). { unfold words_at in *. rewrite (Ag 6), (Ag 7) by discriminate. exact Wd. }
      assert (T : to q = to pt) by (unfold a_dst, d_dst; rewrite (Ag 1) by discriminate; reflexivity).
      apply (O3 q hw w Sq Wq Fh) in Hq. rewrite T, (Ag 4) in Hq by discriminate. exact Hq.
  - intros (Hf & T & H). destruct Wd as ((W6 & D6) & W7 & D7). apply S3; auto.
    + rewrite W6. apply CO. exact Nh.
    + rewrite W7. apply CO. destruct D7 as [_ X]. destruct (X eq_refl) as (t & ->). discriminate.
    + exists pt. split; auto. split; [intros e _ _; reflexivity|]. apply (O3 pt hw w Sp); auto. split; auto.
Qed.
(** Every rule has been read. *)
Lemma rules_shape : forall ns dpeers dports rules h, parse_rules std_dom reg cl ks svcs dfa ns dpeers dports rules = Some h -> forall y, In y rules -> exists hv es, rule_host y hv /\ rule_paths y es.
Proof using.
  intros ns dpeers dports rules h E. unfold parse_rules in E. destruct (fold_left _ rules _) as [st|] eqn:Ef; [|discriminate]. clear E.
  assert (NN : forall l, fold_left (rule_step std_dom reg cl ks svcs dfa ns dpeers dports) l None = None) by (induction l; cbn; auto).
  revert Ef. generalize (Some (c_empty (cube_ops std_dom std_all reg), @None val)). revert st. induction rules as [|z rules IH]; intros st acc Ef y [].
  - subst z. cbn [fold_left] in Ef. destruct (rule_step _ _ _ _ _ _ _ _ _ acc y) as [acc'|] eqn:Es; [|rewrite NN in Ef; discriminate].
    unfold rule_step in Es. destruct acc as [a|]; [|discriminate]. cbn [bind] in Es. destruct (parse_rule std_dom reg cl ks svcs dfa ns dpeers dports y) as [r|] eqn:Er; [|discriminate]. clear - Er.
    unfold parse_rule in Er. destruct (check_fields y _) as [m|] eqn:Em; [|discriminate]. cbn [bind] in Er. apply check_fields_map in Em as [-> _].
    destruct (parse_host std_dom dfa (yget m "host")); [|discriminate]. cbn [bind] in Er. exists (yget m "host"). destruct (yget m "http") as [| | | | | |hm] eqn:Eh; try discriminate.
    destruct (yget hm "paths") as [| | | | |es|] eqn:Ep; try discriminate; [exists []|exists es]; (split; [exists m; auto|exists m, hm; auto]).
  - cbn [fold_left] in Ef. exact (IH st _ Ef y H).
Qed.
(** *** How Kubernetes routes requests *)
(** An exact host before a wildcard, and both before a rule for all hosts; among the paths of the rules for the host, the most specific one. *)
Definition exact_host (hv : yaml) : Prop := exists s, hv = YStr s /\ ~ In "*"%char (text s).
Definition any_host (hv : yaml) : Prop := hv = YNull \/ hv = YStr "*".
Definition more_specific (hv' hv : yaml) : Prop := exact_host hv' /\ ~ exact_host hv \/ any_host hv /\ ~ any_host hv'.
Definition for_host (rules : list yaml) (h : word) (e : yaml) : Prop := exists y hv es, In y rules /\ rule_host y hv /\ rule_paths y es /\ In e es /\ host_is hv h /\
  forall y' hv', In y' rules -> rule_host y' hv' -> host_is hv' h -> ~ more_specific hv' hv.
Definition kubernetes_serves (ns : string) (d : yaml) (rules : list yaml) (h w : word) (x : point) (n : Z) : Prop :=
  (exists e p ty b, for_host rules h e /\ ecovers e w /\ (forall e', for_host rules h e' -> ecovers e' w -> ~ ebeats e' e) /\ path_of e p ty b /\ serves cl ks ns b x n) \/
  (forall e, for_host rules h e -> ~ ecovers e w) /\ serves cl ks ns d x n.
(** At most one rule is for the host. *)
Definition one_rule (rules : list yaml) (h : word) : Prop := forall y y' hv hv', In y rules -> In y' rules -> rule_host y hv -> rule_host y' hv' -> host_is hv h -> host_is hv' h -> y = y'.
Lemma host_dec : forall hv h, host_is hv h \/ ~ host_is hv h.
Proof using.
  intros hv h. destruct hv as [| | | |s| |]; try (right; intros [X|[X|[(s & p & x & X & _)|(s & X & _)]]]; discriminate); [left; left; reflexivity|].
  destruct (String.eqb_spec s "*") as [Q|Q]; [left; right; left; congruence|].
  destruct (in_dec ascii_dec "*"%char (text s)) as [I|I].
  - destruct (text s) as [|c p] eqn:Et; [destruct I|]. destruct (ascii_dec c "*"%char) as [->|Nc].
    + assert (D : (exists x, h = x ++ p /\ label x) \/ ~ exists x, h = x ++ p /\ label x).
      { set (x := firstn (List.length h - List.length p) h).
        assert (U : forall x', h = x' ++ p -> x' = x). { intros x' ->. unfold x. rewrite app_length. replace (List.length x' + List.length p - List.length p) with (List.length x') by lia. rewrite firstn_app, Nat.sub_diag, firstn_all, firstn_O, app_nil_r. reflexivity. }
        destruct (list_eq_dec ascii_dec h (x ++ p)) as [E|E]; [|right; intros (x' & E' & _); apply E; rewrite <- (U x' E'); exact E'].
        destruct (list_eq_dec ascii_dec x []) as [En|En]; [right; intros (x' & E' & L & _); apply L; rewrite (U x' E'); exact En|].
        destruct (in_dec ascii_dec "."%char x) as [Id|Id]; [right; intros (x' & E' & _ & L); apply L; rewrite (U x' E'); exact Id|]. left. exists x. split; [exact E|split; assumption]. }
      destruct D as [(x & E & L)|D]; [left; right; right; left; exists s, p, x; auto|]. right. intros [X|[X|[(s' & p' & x & X & E & E' & L)|(s' & X & N & _)]]]; [discriminate|congruence| |].
      * injection X as <-. rewrite Et in E. injection E as <-. apply D. eauto.
      * injection X as <-. apply N. rewrite Et. left. reflexivity.
    + right. intros [X|[X|[(s' & p' & x & X & E & _)|(s' & X & N & _)]]]; [discriminate|congruence| |]; injection X as <-; [congruence|]. apply N. rewrite Et. exact I.
  - destruct (list_eq_dec ascii_dec h (text s)) as [E|E]; [left; right; right; right; exists s; auto|].
    right. intros [X|[X|[(s' & p' & x & X & Et & _)|(s' & X & N & E')]]]; [discriminate|congruence| |]; injection X as <-; [apply I; rewrite Et; left; reflexivity|congruence].
Qed.
Lemma kubernetes_same : forall ns d rules h w x n, (forall y, In y rules -> exists hv es, rule_host y hv /\ rule_paths y es) -> one_rule rules h ->
  (ingress_serves cl ks ns d rules h w x n <-> kubernetes_serves ns d rules h w x n).
Proof using.
  intros ns d rules h w x n Sh One. clear - Sh One.
  assert (FH : forall y hv es, In y rules -> rule_host y hv -> rule_paths y es -> host_is hv h -> forall e, for_host rules h e <-> In e es).
  { intros y hv es Hy Rh Rp Hh e. split.
    - intros (y' & hv' & es' & Hy' & Rh' & Rp' & He & Hh' & _). assert (Q : y' = y) by exact (One y' y hv' hv Hy' Hy Rh' Rh Hh' Hh). subst y'. rewrite (paths_fn _ _ _ Rp Rp'). exact He.
    - intros He. exists y, hv, es. repeat (split; [assumption|]). intros y' hv' Hy' Rh' Hh' Ms. assert (Q : y' = y) by exact (One y' y hv' hv Hy' Hy Rh' Rh Hh' Hh). subst y'. rewrite (host_fn _ _ _ Rh' Rh) in Ms. unfold more_specific in Ms. tauto. }
  assert (Ex : (exists y hv, In y rules /\ rule_host y hv /\ host_is hv h) \/ forall y hv, In y rules -> rule_host y hv -> ~ host_is hv h).
  { clear FH One. induction rules as [|y rules IH]; [right; intros y hv []|]. destruct (Sh y (or_introl eq_refl)) as (hv & es & Rh & _). destruct (host_dec hv h) as [D|D]; [left; exists y, hv; cbn [In]; auto|].
    destruct (IH (fun y' H => Sh y' (or_intror H))) as [(y' & hv' & H1 & H2)|N]; [left; exists y', hv'; cbn [In]; auto|]. right. intros y' hv' [<-|H]; [intros Rh'; rewrite (host_fn _ _ _ Rh' Rh); exact D|exact (N y' hv' H)]. }
  unfold ingress_serves, kubernetes_serves. split.
  - intros [(y & Hy & hv & es & Rh & Rp & Hh & H)|[N H]].
    + pose proof (FH y hv es Hy Rh Rp Hh) as F. destruct H as [(e & p & ty & b & He & [Ce Be] & Pe & Se)|[N Sd]]; [left; exists e, p, ty, b|right].
      * split; [apply F; exact He|]. split; [exact Ce|]. split; [intros e' He'; apply Be; apply F; exact He'|]. auto.
      * split; [intros e He; apply N; apply F; exact He|exact Sd].
    + right. split; [|exact H]. intros e (y & hv & es & Hy & Rh & _ & _ & Hh & _). destruct (N y hv Hy Rh Hh).
  - intros H. destruct Ex as [(y & hv & Hy & Rh & Hh)|N].
    + left. exists y. split; [exact Hy|]. destruct (Sh y Hy) as (hv' & es & _ & Rp). exists hv, es. repeat (split; [assumption|]). pose proof (FH y hv es Hy Rh Rp Hh) as F.
      destruct H as [(e & p & ty & b & He & Ce & Be & Pe & Se)|[N Sd]]; [left; exists e, p, ty, b|right].
      * split; [apply F; exact He|]. split; [split; [exact Ce|intros e' He'; apply Be; apply F; exact He']|]. auto.
      * split; [intros e He; apply N; apply F; exact He|exact Sd].
    + right. split; [exact N|]. destruct H as [(e & p & ty & b & (y & hv & es & Hy & Rh & _ & _ & Hh & _) & _)|[_ Sd]]; [destruct (N y hv Hy Rh Hh)|exact Sd].
Qed.
Theorem C60_routes_like_kubernetes : forall y P name ns d rules, parse y = Some (Some P) -> ingress_doc y name ns d rules -> ingress_benign ns d rules ->
  forall pt h w, space pt -> words_at code pt h w -> h <> [] -> (forall x hv, In x rules -> rule_host x hv -> fair hv h) -> one_rule rules h ->
    (some_rule (p_egress P) pt <-> pt_in (from pt) (p_selected P) /\ pt 2 = 6%Z /\ kubernetes_serves ns d rules h w (to pt) (pt 4)).
Proof using R Hc HC Hp HS CO.
  intros y P name ns d rules E D B pt h w Sp Wd Nh Fh One. destruct (C60_ingress_policy y P E) as (name' & ns' & d' & rules' & D' & _ & _ & _ & _ & _ & _ & _ & _ & X).
  destruct (ingress_doc_fn _ _ _ _ _ _ _ _ _ D D') as (-> & -> & -> & ->). destruct (X B) as (_ & _ & _ & M).
  assert (Sh : forall y, In y rules -> exists hv es, rule_host y hv /\ rule_paths y es).
  { destruct (ingress_policy_inv y P E) as (n2 & s2 & d2 & l2 & r & hh & D2 & _ & Eh & _). destruct (ingress_doc_fn _ _ _ _ _ _ _ _ _ D D2) as (-> & -> & -> & ->). exact (rules_shape _ _ _ _ _ Eh). }
  rewrite <- (kubernetes_same ns d rules h w (to pt) (pt 4) Sh One). apply M; auto.
Qed.
End Doc.
Print Assumptions C60_ingress_policy.
Print Assumptions C60_routes_like_kubernetes.
