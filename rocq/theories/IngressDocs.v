(** * What an Ingress document says, and the steps of its parser. *)
From Coq Require Import ZArith List Bool Arith Lia String Ascii.
From Verif Require Import IntervalModel IntervalFacts HyperModel HyperFacts HyperOps HyperDims HyperTop HyperInst PropHyperCube ConnModel ConnFacts TextModel PortProtoModel
                          PeerModel PeerFacts PeerSetFacts PolicyModel PolicyLaws PolicyFacts LayerFacts OrderFacts ConnAlg StdDims PropLayers YamlModel ClusterModel ConnDict
                          SelectorFacts PropSelectors K8sParserModel K8sParserFacts CalicoSelectorModel CalicoParserModel IstioValueModel PropIstioValues IstioRuleFacts ServiceModel PropServices
                          IngressModel IngressWords PropIngressPaths GatewayFacts IngressFacts.
Import ListNotations.
Local Open Scope string_scope.
Local Open Scope list_scope.
Local Open Scope nat_scope.
Local Opaque min_pod_index max_pod_index min_ipv6_index max_ipv6_index max_ipv4_index v4max v6min v6max.
Notation dict := (list (string * yaml)).

(** ** The specification *)
(** *** Backends *)
Section Backends.
Context (cl : cluster) (ks : list k8s_service).
(** The port of a service that a backend names: by a name that is not empty, else by its number. *)
Definition fits (pm : dict) (p : sport) : Prop :=
  (exists s, yget pm "name" = YStr s /\ s <> "" /\ sp_name p = Some s) \/
  (forall s, yget pm "name" = YStr s -> s = "") /\ exists n, yint (yget pm "number") = Some n /\ yint (sp_number p) = Some n.
Definition picks (pm : dict) (ports : list sport) (p : sport) : Prop :=
  exists a b, ports = a ++ p :: b /\ fits pm p /\ forall q, In q a -> ~ fits pm q.
(** The backend is this port of a service with these pods. *)
Definition backend (ns : string) (y : yaml) (pods : peerset) (p : sport) : Prop :=
  exists bm sm nm pm k, y = YMap bm /\ ytrue (yget bm "resource") = false /\ yget bm "service" = YMap sm /\ yget sm "name" = YStr nm /\ yget sm "port" = YMap pm /\
    last_service ks k /\ ks_name k = nm /\ ks_ns k = ns /\ target_pods cl k = Some pods /\ picks pm (ks_ports k) p.
(** The number that the target port of the service stands for at a pod.  The protocol of a named port is not compared with TCP. *)
Definition port_at (x : point) (p : sport) (n : Z) : Prop :=
  yint (sp_target p) = Some n \/ exists t pr, sp_target p = YStr t /\ (0 <= pr <= 255)%Z /\ named_at (cl_ports cl) x t n pr.
Definition serves (ns : string) (y : yaml) (x : point) (n : Z) : Prop := exists pods p, backend ns y pods p /\ pt_in x pods /\ port_at x p n.

(** *** Paths *)
(** The elements of a path without the empty one after a slash at its end. *)
Definition path_elements (p : word) : list word := match rev (elements p) with [] :: r => rev r | _ => elements p end.
Definition path_of (e : yaml) (p : word) (ty : string) (b : yaml) : Prop :=
  exists m s, e = YMap m /\ yget m "path" = YStr s /\ p = text s /\ yget m "pathType" = YStr ty /\ yget m "backend" = b.
Definition ecovers (e : yaml) (w : word) : Prop :=
  exists p ty b, path_of e p ty b /\ (ty = "Exact" /\ w = p \/ ty <> "Exact" /\ exists r, elements w = path_elements p ++ r).
Definition ebeats (e' e : yaml) : Prop := exists p ty b p' ty' b', path_of e p ty b /\ path_of e' p' ty' b' /\
  ty <> "Exact" /\ (ty' = "Exact" \/ List.length (path_elements p) < List.length (path_elements p')).
Definition eroutes (es : list yaml) (e : yaml) (w : word) : Prop := ecovers e w /\ forall e', In e' es -> ecovers e' w -> ~ ebeats e' e.

(** *** Rules *)
Definition rule_host (y hv : yaml) : Prop := exists m, y = YMap m /\ yget m "host" = hv.
Definition rule_paths (y : yaml) (es : list yaml) : Prop := exists m hm, y = YMap m /\ yget m "http" = YMap hm /\
  (yget hm "paths" = YNull /\ es = [] \/ yget hm "paths" = YList es).
(** A wildcard stands for one label. *)
Definition label (x : word) : Prop := x <> [] /\ ~ In "."%char x.
Definition host_is (hv : yaml) (h : word) : Prop :=
  hv = YNull \/ hv = YStr "*" \/ (exists s p x, hv = YStr s /\ text s = "*"%char :: p /\ h = x ++ p /\ label x) \/
  (exists s, hv = YStr s /\ ~ In "*"%char (text s) /\ h = text s).
(** Requests for the host [h] and the path [w] that reach the port [n] of [x]; [d]: the default backend. *)
Definition rule_serves (ns : string) (d y : yaml) (h w : word) (x : point) (n : Z) : Prop :=
  exists hv es, rule_host y hv /\ rule_paths y es /\ host_is hv h /\
    ((exists e p ty b, In e es /\ eroutes es e w /\ path_of e p ty b /\ serves ns b x n) \/ (forall e, In e es -> ~ ecovers e w) /\ serves ns d x n).
Definition ingress_serves (ns : string) (d : yaml) (rules : list yaml) (h w : word) (x : point) (n : Z) : Prop :=
  (exists y, In y rules /\ rule_serves ns d y h w x n) \/ (forall y hv, In y rules -> rule_host y hv -> ~ host_is hv h) /\ serves ns d x n.
End Backends.

(** ** Backends: the parser *)
Lemma find_first : forall {X} (f : X -> bool) (P : X -> Prop) l p, (forall x, f x = true <-> P x) ->
  (find f l = Some p <-> exists a b, l = a ++ p :: b /\ P p /\ forall q, In q a -> ~ P q).
Proof.
  intros X f P l p H. induction l as [|x l IH]; cbn [find].
  - split; [discriminate|]. intros ([|? ?] & b & E & _); discriminate.
  - destruct (f x) eqn:Ex.
    + split; [intros E; injection E as <-; exists [], l; split; auto; split; [apply H; auto|intros q []]|]. intros ([|y a] & b & E & Hp & N); [injection E as -> ->; reflexivity|].
      injection E as <- ->. exfalso. apply (N x); [left; auto|apply H; auto].
    + rewrite IH. split.
      * intros (a & b & -> & Hp & N). exists (x :: a), b. split; auto. split; auto. intros q [<-|Hq]; auto. intros Hx. apply H in Hx. congruence.
      * intros ([|y a] & b & E & Hp & N); [injection E as -> ->; apply H in Hp; congruence|]. injection E as <- ->. exists a, b. split; auto. split; auto. intros q Hq. apply N. right. auto.
Qed.
Lemma fits_b : forall pm p, (match yget pm "name" with
    | YStr (String c s) => ostr_eqb (sp_name p) (Some (String c s))
    | _ => match yint (sp_number p), yint (yget pm "number") with Some a, Some b => Z.eqb a b | _, _ => false end
    end = true) <-> fits pm p.
Proof.
  intros pm p. unfold fits.
  assert (N : (match yint (sp_number p), yint (yget pm "number") with Some a, Some b => Z.eqb a b | _, _ => false end = true) <-> exists n, yint (yget pm "number") = Some n /\ yint (sp_number p) = Some n).
  { destruct (yint (sp_number p)) as [a|], (yint (yget pm "number")) as [b|]; try (split; [discriminate|intros (n & E1 & E2); discriminate]).
    rewrite Z.eqb_eq. split; [intros ->; eauto|intros (n & E1 & E2); congruence]. }
  destruct (yget pm "name") as [| | | |[|c s]| |] eqn:E;
    try (rewrite N; split; [intros H; right; split; [intros s' Q; congruence|exact H]|intros [(s' & Q & Ne & _)|[_ H]]; [congruence|exact H]]).
  destruct (sp_name p) as [t|]; cbn [ostr_eqb].
  - rewrite String.eqb_eq. split; [intros ->; left; exists (String c s); split; auto; split; [discriminate|auto]|]. intros [(s' & Q & _ & Et)|[H _]]; [congruence|discriminate (H _ eq_refl)].
  - split; [discriminate|]. intros [(s' & Q & _ & Et)|[H _]]; [discriminate|discriminate (H _ eq_refl)].
Qed.
Lemma find_port_spec : forall pm ports p, find_port ports (yget pm "name") (yget pm "number") = Some p <-> picks pm ports p.
Proof.
  intros pm ports p. unfold picks. rewrite <- (find_first _ (fits pm) ports p (fits_b pm)). unfold find_port.
  destruct (yget pm "name") as [| | | |[|c s]| |]; split; auto.
Qed.
Lemma find_last : forall ks ns nm k, find (fun s => String.eqb (ks_ns s) ns && String.eqb (ks_name s) nm) (rev ks) = Some k <->
  last_service ks k /\ ks_name k = nm /\ ks_ns k = ns.
Proof.
  intros ks ns nm k. rewrite (find_first _ (fun s => ks_name s = nm /\ ks_ns s = ns)).
  2:{ intros s. rewrite andb_true_iff, !String.eqb_eq. tauto. }
  split.
  - intros (a & b & E & [H1 H2] & N). split; auto. exists (rev b), (rev a). split.
    + rewrite <- (rev_involutive ks), E, rev_app_distr. cbn [rev]. rewrite <- app_assoc. reflexivity.
    + intros s Hs. apply in_rev in Hs. rewrite H1, H2. apply N. exact Hs.
  - intros ((pre & post & -> & N) & H1 & H2). exists (rev post), (rev pre). rewrite rev_app_distr. cbn [rev]. rewrite <- app_assoc. split; [reflexivity|]. split; auto.
    intros q Hq. apply in_rev in Hq. rewrite <- H1, <- H2. apply N. exact Hq.
Qed.
Section Parser.
Context (cl : cluster) (ks : list k8s_service) (svcs : list service) (HS : set_services cl ks = Some svcs).
Lemma last_fn : forall k k', last_service ks k -> last_service ks k' -> ks_name k = ks_name k' -> ks_ns k = ks_ns k' -> k = k'.
Proof using.
  intros k k' H H' E1 E2. pose proof (proj2 (find_last ks (ks_ns k') (ks_name k') k) (conj H (conj E1 E2))) as F1.
  pose proof (proj2 (find_last ks (ks_ns k') (ks_name k') k') (conj H' (conj eq_refl eq_refl))) as F2. congruence.
Qed.
Lemma find_service_spec : forall ns nm ports pods, find_service ks svcs ns nm = Some (ports, pods) <->
  exists k, last_service ks k /\ ks_name k = nm /\ ks_ns k = ns /\ target_pods cl k = Some pods /\ ports = ks_ports k.
Proof using HS.
  intros ns nm ports pods. destruct (C57_services cl ks svcs HS) as [_ M]. unfold find_service. split.
  - intros E. destruct (find _ (rev ks)) as [k|] eqn:Ek; [|discriminate]. destruct (find _ svcs) as [s|] eqn:Es; [|discriminate]. injection E as <- <-.
    apply find_last in Ek as (Lk & N1 & N2). apply find_some in Es as [Is Es]. apply andb_true_iff in Es as [S1 S2]. apply String.eqb_eq in S1, S2.
    apply M in Is as (k' & pods & Lk' & Tk & ->). cbn [sv_ns sv_name sv_pods] in *. assert (Q : k' = k) by (apply last_fn; auto; congruence). subst k'. exists k. auto.
  - intros (k & Lk & N1 & N2 & Tk & ->). rewrite (proj2 (find_last ks ns nm k)) by auto.
    assert (Is : In (Service nm ns pods) svcs) by (apply M; exists k, pods; rewrite N1, N2; auto).
    destruct (find _ svcs) as [s|] eqn:Es.
    + apply find_some in Es as [Is' Es]. apply andb_true_iff in Es as [S1 S2]. apply String.eqb_eq in S1, S2. apply M in Is' as (k' & pods' & Lk' & Tk' & ->). cbn [sv_ns sv_name sv_pods] in *.
      assert (Q : k' = k) by (apply last_fn; auto; congruence). subst k'. congruence.
    + exfalso. pose proof (List.find_none _ _ Es _ Is) as X. cbn [sv_ns sv_name] in X. rewrite !String.eqb_refl in X. discriminate.
Qed.
Lemma backend_fn : forall ns y pods p pods' p', backend cl ks ns y pods p -> backend cl ks ns y pods' p' -> pods = pods' /\ p = p'.
Proof using.
  intros ns y pods p pods' p' (bm & sm & nm & pm & k & -> & _ & E1 & E2 & E3 & Lk & N1 & N2 & Tk & Pk) (bm' & sm' & nm' & pm' & k' & E & _ & E1' & E2' & E3' & Lk' & N1' & N2' & Tk' & Pk').
  injection E as <-. rewrite E1 in E1'. injection E1' as <-. rewrite E2 in E2'. injection E2' as <-. rewrite E3 in E3'. injection E3' as <-.
  assert (Q : k = k') by (apply last_fn; auto; congruence). subst k'. split; [congruence|]. apply find_port_spec in Pk, Pk'. congruence.
Qed.
Lemma parse_backend_spec : forall ns d y r, parse_backend ks svcs ns d y = Some r ->
  (exists pods p q, backend cl ks ns y pods p /\ target_ports (sp_target p) = Some q /\ r = (Some pods, Some q, true)) \/
  (forall pods p, ~ backend cl ks ns y pods p) /\ fst (fst r) = None.
Proof using HS.
  intros ns d y r E. unfold parse_backend in E. destruct (is_null y) eqn:Ny.
  - injection E as <-. right. split; auto. intros pods p (bm & _ & _ & _ & _ & -> & _). discriminate.
  - destruct (check_fields y _) as [m|] eqn:Em; [|discriminate]. cbn [bind] in E. apply check_fields_map in Em as [-> _].
    destruct (ytrue (yget m "resource") && ytrue (yget m "service")); [discriminate|].
    destruct (ytrue (yget m "resource")) eqn:Er.
    + injection E as <-. right. split; auto. intros pods p (bm & _ & _ & _ & _ & Q & Rf & _). injection Q as <-. congruence.
    + match type of E with bind ?e _ = _ => destruct e as [sm|] eqn:Es; [|discriminate] end. cbn [bind] in E. apply check_fields_map in Es as [Es _].
      match type of E with bind ?e _ = _ => destruct e as [pm|] eqn:Ep; [|discriminate] end. cbn [bind] in E. apply check_fields_map in Ep as [Ep _].
      match type of E with (if ?c then _ else _) = _ => destruct c; [discriminate|] end.
      match type of E with (if ?c then _ else _) = _ => destruct c; [discriminate|] end.
      destruct (yget sm "name") as [| | | |nm| |] eqn:En; try discriminate.
      destruct (find_service ks svcs ns nm) as [[ports pods]|] eqn:Ef.
      * apply find_service_spec in Ef as (k & Lk & N1 & N2 & Tk & ->). destruct (find_port (ks_ports k) (yget pm "name") (yget pm "number")) as [p|] eqn:Epo.
        -- destruct (target_ports (sp_target p)) as [q|] eqn:Eq; [|discriminate]. cbn [bind] in E. injection E as <-. left. exists pods, p, q. split; auto.
           exists m, sm, nm, pm, k. apply find_port_spec in Epo. repeat (split; auto).
        -- injection E as <-. right. split; auto. intros pods' p' (bm' & sm' & nm' & pm' & k' & Q & _ & E1' & E2' & E3' & Lk' & N1' & N2' & Tk' & Pk'). injection Q as <-.
           rewrite Es in E1'. injection E1' as <-. rewrite En in E2'. injection E2' as <-. rewrite Ep in E3'. injection E3' as <-.
           assert (Q : k' = k) by (apply last_fn; auto; congruence). subst k'. apply find_port_spec in Pk'. congruence.
      * injection E as <-. right. split; auto. intros pods' p' (bm' & sm' & nm' & pm' & k' & Q & _ & E1' & E2' & E3' & Lk' & N1' & N2' & Tk' & Pk'). injection Q as <-.
        rewrite Es in E1'. injection E1' as <-. rewrite En in E2'. injection E2' as <-.
        assert (X : find_service ks svcs ns nm = Some (ks_ports k', pods')) by (apply find_service_spec; exists k'; auto). congruence.
Qed.
(** The numbers of a target port are in the range of ports. *)
Definition target_good (p : sport) : Prop := forall n, yint (sp_target p) = Some n -> (1 <= n <= 65535)%Z.
Lemma target_ports_spec : forall p q, target_ports (sp_target p) = Some q -> target_good p -> ports_good q /\
  forall x n, dport_in (cl_ports cl) (fun pr => 0 <= pr <= 255)%Z x q n <-> port_at cl x p n.
Proof using.
  intros p q E G. unfold target_ports in E. unfold target_good in G. unfold port_at.
  assert (Num : forall y n, yint y = Some n -> (1 <= n <= 65535)%Z -> (forall t, y <> YStr t) -> ports_good (PortSet [Ivl n n] [] []) /\
    forall x m, dport_in (cl_ports cl) (fun pr => 0 <= pr <= 255)%Z x (PortSet [Ivl n n] [] []) m <-> yint y = Some m \/ exists t pr, y = YStr t /\ (0 <= pr <= 255)%Z /\ named_at (cl_ports cl) x t m pr).
  { intros y n En Rn Ny. split.
    - split; [|reflexivity]. split; [cbn; split; [lia|exact Logic.I]|]. intros z Hz. cbn [port_set] in Hz. apply one_mem in Hz. lia.
    - intros x m. unfold dport_in. cbn [port_set named_ports In]. rewrite one_mem, En. split.
      + intros [H|(name & pr & [] & _)]. left. f_equal. lia.
      + intros [H|(t & pr & Q & _)]; [injection H as ->; left; lia|destruct (Ny t Q)]. }
  destruct (sp_target p) as [|b|n|z|t|l|m]; try discriminate E.
  - injection E as <-. apply (Num (YBool b) _ eq_refl); [apply G; reflexivity|discriminate].
  - injection E as <-. apply (Num (YInt n) _ eq_refl); [apply G; reflexivity|discriminate].
  - injection E as <-. split; [split; [split; [exact Logic.I|intros z Hz; destruct (proj1 (mem_nil z) Hz)]|reflexivity]|]. intros x n. unfold dport_in. cbn [port_set named_ports In]. rewrite mem_nil. split.
    + intros [[]|(name & pr & [<-|[]] & H1 & H2)]. right. exists t, pr. auto.
    + intros [H|(t' & pr & Q & H1 & H2)]; [discriminate|]. injection Q as <-. right. exists t, pr. auto.
Qed.
End Parser.

(** ** Paths: the parser *)
Lemma ends_slash_app : forall p, ends_slash p = true <-> exists q, p = q ++ ["/"%char].
Proof.
  intros p. unfold ends_slash. split.
  - destruct (rev p) as [|c r] eqn:E; [discriminate|]. intros H. apply Ascii.eqb_eq in H. subst c. exists (rev r). rewrite <- (rev_involutive p), E. reflexivity.
  - intros (q & ->). rewrite rev_app_distr. reflexivity.
Qed.
Lemma path_elements_spec : forall p, p <> [] -> elements (no_slash p) = path_elements p.
Proof.
  intros p N. unfold no_slash, path_elements. destruct (ends_slash p) eqn:E.
  - apply ends_slash_app in E as (q & ->). rewrite removelast_last, elements_app. cbn [elements]. rewrite rev_app_distr. cbn [rev app]. rewrite rev_involutive. reflexivity.
  - destruct (rev (elements p)) as [|[|c x] r] eqn:Er; auto. exfalso. assert (Ep : elements p = rev r ++ [[]]) by (rewrite <- (rev_involutive (elements p)), Er; reflexivity).
    destruct (rev r) as [|y l] eqn:Erev.
    + apply N. apply elements_inj. rewrite Ep. reflexivity.
    + assert (X : ends_slash p = true); [|congruence]. apply ends_slash_app. exists (join_texts "/"%char (y :: l)). rewrite <- (join_elements p), Ep, join_app by discriminate. reflexivity.
Qed.
Lemma path_of_fn : forall e p ty b p' ty' b', path_of e p ty b -> path_of e p' ty' b' -> p = p' /\ ty = ty' /\ b = b'.
Proof.
  intros e p ty b p' ty' b' (m & s & -> & E1 & -> & E2 & E3) (m' & s' & E & E1' & -> & E2' & E3'). injection E as <-. rewrite E1 in E1'. injection E1' as <-. rewrite E2 in E2'. injection E2' as <-. rewrite E3 in E3'. auto.
Qed.
Section Paths.
Context (reg : list peer) (R : reg_ok reg) (cl : cluster) (Hc : cluster_ok cl) (HC : container reg (cl_peers cl)).
Context (ks : list k8s_service) (svcs : list service) (HS : set_services cl ks = Some svcs).
Context (code : word -> Z) (dfa : list ascii -> val).
Context (ns : string).
Notation space := (a_space std_dom).
Notation to := (a_dst reg).
Lemma backend_pods : forall y pods p, backend cl ks ns y pods p -> pok reg pods.
Proof using Hc HC.
  intros y pods p (bm & sm & nm & pm & k & _ & _ & _ & _ & _ & _ & _ & _ & Tk & _). destruct (target_pods_spec cl Hc k pods Tk) as [Pl M]. apply (plain_pok cl reg HC); auto. intros q Hq. apply M in Hq. tauto.
Qed.
Lemma default_backend : forall y r, parse_backend ks svcs ns true y = Some r -> (forall pods p, backend cl ks ns y pods p -> pods <> [] -> target_good p) ->
  default_good reg (fst (fst r)) (snd (fst r)) /\ (some_peers (fst (fst r)) = true <-> exists pods p, backend cl ks ns y pods p /\ pods <> []) /\
  forall pt, default_at reg cl (fst (fst r)) (snd (fst r)) pt <-> serves cl ks ns y (to pt) (pt 4).
Proof using Hc HC HS.
  intros y r E G. destruct (parse_backend_spec cl ks svcs HS ns true y r E) as [(pods & p & q & B & Eq & ->)|[N Er]].
  - cbn [fst snd]. assert (S : some_peers (Some pods) = true <-> pods <> []) by (destruct pods; cbn; split; congruence).
    assert (F : forall pods' p', backend cl ks ns y pods' p' -> pods' = pods /\ p' = p) by (intros pods' p' B'; exact (backend_fn cl ks ns y _ _ _ _ B' B)).
    split; [|split].
    + intros H. exists pods, q. split; auto. split; auto. split; [exact (backend_pods y pods p B)|]. apply S in H. exact (proj1 (target_ports_spec cl p q Eq (G pods p B H))).
    + rewrite S. split; [intros H; exists pods, p; auto|]. intros (pods' & p' & B' & H). destruct (F _ _ B') as [-> _]. exact H.
    + intros pt. unfold default_at, serves, target. split.
      * intros (H & s & q' & E1 & E2 & T1 & T2). injection E1 as <-. injection E2 as <-. exists pods, p. split; auto. split; auto. apply S in H. apply (proj2 (target_ports_spec cl p q Eq (G pods p B H))). exact T2.
      * intros (pods' & p' & B' & T1 & T2). destruct (F _ _ B') as [-> ->]. assert (H : pods <> []). { intros ->. destruct (to pt); [destruct T1|destruct T1 as (l & [] & _)]. }
        split; [apply S; exact H|]. exists pods, q. split; auto. split; auto. split; auto. apply (proj2 (target_ports_spec cl p q Eq (G pods p B H))). exact T2.
  - rewrite Er. cbn [some_peers]. split; [discriminate|]. split; [split; [discriminate|intros (pods & p & B & _); destruct (N pods p B)]|]. intros pt. split; [intros (H & _); discriminate|].
    intros (pods & p & B & _). destruct (N pods p B).
Qed.
(** Entries outside the findings. *)
Definition entry_benign (e : yaml) : Prop := exists p ty b pods sp, path_of e p ty b /\ backend cl ks ns b pods sp /\ pods <> [] /\ target_good sp /\ ~ In "."%char p /\
  (ty = "Exact" /\ reads code dfa 7 p \/ (ty = "Prefix" \/ ty = "ImplementationSpecific") /\ ends_slash (no_slash p) = false /\ (p = ["/"%char] \/ reads code dfa 7 (prefix_regex p))).
(** What the parser makes of such an entry. *)
Definition parsed_as (e : yaml) (ip : ipath) : Prop := exists p ty b pods sp q, path_of e p ty b /\ backend cl ks ns b pods sp /\ target_good sp /\ target_ports (sp_target sp) = Some q /\
  path_ok p = true /\ ~ In "."%char p /\
  (ty = "Exact" /\ reads code dfa 7 p /\ ip = IPath p true (Some pods) (Some q) \/
   ty <> "Exact" /\ ends_slash (no_slash p) = false /\ (p = ["/"%char] \/ reads code dfa 7 (prefix_regex p)) /\ ip = IPath (no_slash p) false (Some pods) (Some q)).
Lemma parse_path_spec : forall dpeers dports e o, parse_path ks svcs ns dpeers dports e = Some o -> entry_benign e -> exists ip, o = Some ip /\ parsed_as e ip.
Proof using HS.
  intros dpeers dports e o E (p & ty & b & pods & sp & (m & s & -> & E1 & -> & E2 & E3) & B & NE & G & ND & T). unfold parse_path in E.
  destruct (check_fields (YMap m) _) as [m'|] eqn:Em; [|discriminate]. cbn [bind] in E. apply check_fields_map in Em as [Em _]. injection Em as <-. rewrite E3 in E.
  destruct (parse_backend ks svcs ns false b) as [r|] eqn:Eb; [|discriminate]. cbn [bind] in E.
  destruct (parse_backend_spec cl ks svcs HS ns false b r Eb) as [(pods' & p' & q & B' & Eq & ->)|[N _]]; [|destruct (N pods sp B)].
  destruct (backend_fn cl ks ns b _ _ _ _ B B') as [<- <-]. assert (S : some_peers (Some pods) = true) by (destruct pods; [congruence|reflexivity]). rewrite S in E. cbn [negb andb] in E.
  rewrite E1, E2 in E. destruct (path_ok (text s)) eqn:Po; [|discriminate]. cbn [negb] in E. injection E as <-. eexists. split; [reflexivity|].
  exists (text s), ty, b, pods, sp, q. split; [exists m, s; auto|]. split; [exact B|]. split; [exact G|]. split; [exact Eq|]. split; [exact Po|]. split; [exact ND|].
  destruct T as [[-> T]|([->| ->] & T1 & T2)]; [left|right|right]; cbn [String.eqb orb Ascii.eqb Bool.eqb]; (split; [discriminate || reflexivity|]); auto.
Qed.
Lemma parsed_covers : forall e ip w, parsed_as e ip -> (covers ip w <-> ecovers e w).
Proof using.
  intros e ip w (p & ty & b & pods & sp & q & P & _ & _ & _ & Po & _ & D). assert (Np : p <> []) by (destruct p; [discriminate Po|discriminate]). unfold covers, ecovers.
  destruct D as [(Q & _ & ->)|(Q & _ & _ & ->)]; cbn [ip_exact ip_text].
  - split; [intros ->; exists p, ty, b; auto|]. intros (p' & ty' & b' & P' & H). destruct (path_of_fn _ _ _ _ _ _ _ P P') as (<- & <- & _). destruct H as [[_ H]|[H _]]; congruence.
  - rewrite (path_elements_spec p Np). split; [intros H; exists p, ty, b; auto|]. intros (p' & ty' & b' & P' & H). destruct (path_of_fn _ _ _ _ _ _ _ P P') as (<- & <- & _). destruct H as [[H _]|[_ H]]; [congruence|exact H].
Qed.
Lemma parsed_beats : forall e ip e' ip', parsed_as e ip -> parsed_as e' ip' -> (beats ip' ip <-> ebeats e' e).
Proof using.
  intros e ip e' ip' (p & ty & b & pods & sp & q & P & _ & _ & _ & Po & _ & D) (p' & ty' & b' & pods' & sp' & q' & P' & _ & _ & _ & Po' & _ & D').
  assert (Np : p <> []) by (destruct p; [discriminate Po|discriminate]). assert (Np' : p' <> []) by (destruct p'; [discriminate Po'|discriminate]). unfold beats, ebeats.
  assert (X : (exists a ta ba a' ta' ba', path_of e a ta ba /\ path_of e' a' ta' ba' /\ ta <> "Exact" /\ (ta' = "Exact" \/ List.length (path_elements a) < List.length (path_elements a'))) <->
              ty <> "Exact" /\ (ty' = "Exact" \/ List.length (path_elements p) < List.length (path_elements p'))).
  { split; [|intros H; exists p, ty, b, p', ty', b'; auto]. intros (a & ta & ba & a' & ta' & ba' & Pa & Pa' & H). destruct (path_of_fn _ _ _ _ _ _ _ P Pa) as (<- & <- & _). destruct (path_of_fn _ _ _ _ _ _ _ P' Pa') as (<- & <- & _). exact H. }
  rewrite X. clear X. destruct D as [(Q & _ & ->)|(Q & _ & _ & ->)], D' as [(Q' & _ & ->)|(Q' & _ & _ & ->)]; cbn [ip_exact ip_text]; rewrite ?(path_elements_spec p Np), ?(path_elements_spec p' Np').
  - split; [intros [H _]; discriminate|intros [H _]; congruence].
  - split; [intros [H _]; discriminate|intros [H _]; congruence].
  - split; auto.
  - split; [intros [_ [H|H]]; [discriminate|auto]|]. intros [_ [H|H]]; [congruence|auto].
Qed.
Lemma parsed_facts : forall e ip, parsed_as e ip -> path_wf ip /\ path_reads code dfa ip /\ path_good reg ip /\
  (forall pt, path_at reg cl ip pt <-> exists p ty b, path_of e p ty b /\ serves cl ks ns b (to pt) (pt 4)).
Proof using Hc HC.
  intros e ip (p & ty & b & pods & sp & q & P & B & G & Eq & Po & ND & D).
  destruct (target_ports_spec cl sp q Eq G) as [Gq Mq].
  assert (Pl : plain_word p).
  { apply Forall_forall. intros c Hc'. split; [|intros ->; exact (ND Hc')]. unfold path_ok in Po. destruct p as [|c0 p]; [discriminate|]. apply andb_true_iff in Po as [_ Po]. exact (proj1 (forallb_forall _ _) Po c Hc'). }
  assert (St : exists t, p = "/"%char :: t) by (unfold path_ok in Po; destruct p as [|c0 p]; [discriminate|]; apply andb_true_iff in Po as [Po _]; apply Ascii.eqb_eq in Po; subst c0; eauto).
  assert (Eip : ip_peers ip = Some pods /\ ip_ports ip = Some q) by (destruct D as [(_ & _ & ->)|(_ & _ & _ & ->)]; auto). destruct Eip as [Ei1 Ei2].
  split; [|split; [|split]].
  - destruct D as [(_ & _ & ->)|(_ & Es & _ & ->)]; unfold path_wf; cbn [ip_text ip_exact].
    + split; auto.
    + split; [|split; [right; exact Es|]].
      * unfold no_slash. destruct (ends_slash p) eqn:E; auto. apply ends_slash_app in E as (q' & ->). rewrite removelast_last. unfold plain_word in Pl. apply Forall_app in Pl. tauto.
      * unfold no_slash in *. destruct (ends_slash p) eqn:E; [|left; exact St]. apply ends_slash_app in E as (q' & ->). rewrite removelast_last in *. destruct q' as [|c q']; [right; auto|]. left. destruct St as (t & St). injection St as -> _. eexists; reflexivity.
  - destruct D as [(_ & Rd & ->)|(_ & Es & Rd & ->)]; unfold path_reads; cbn [ip_text ip_exact]; auto. destruct Rd as [->|Rd]; [left; reflexivity|right].
    assert (Q : prefix_regex (no_slash p) = prefix_regex p) by (unfold prefix_regex, no_slash at 1; rewrite Es; reflexivity). rewrite Q. exact Rd.
  - exists pods, q. split; auto. split; auto. split; auto. exact (backend_pods b pods sp B).
  - intros pt. unfold path_at, target, serves. split.
    + intros (s & q' & E1 & E2 & T1 & T2). rewrite Ei1 in E1. rewrite Ei2 in E2. injection E1 as <-. injection E2 as <-. exists p, ty, b. split; auto. exists pods, sp. split; auto. split; auto. apply Mq. exact T2.
    + intros (p' & ty' & b' & P' & pods' & sp' & B' & T1 & T2). destruct (path_of_fn _ _ _ _ _ _ _ P P') as (<- & <- & <-). destruct (backend_fn cl ks ns b _ _ _ _ B B') as [<- <-].
      exists pods, q. split; auto. split; auto. split; auto. apply Mq. exact T2.
Qed.
Definition paths_benign (es : list yaml) : Prop := (forall e, In e es -> entry_benign e) /\
  forall i j e e' p ty b p' ty' b', nth_error es i = Some e -> nth_error es j = Some e' -> path_of e p ty b -> path_of e' p' ty' b' ->
    ty <> "Exact" -> ty' <> "Exact" -> path_elements p = path_elements p' -> i = j.
Lemma parse_paths_spec : forall dpeers dports es os, mapM (parse_path ks svcs ns dpeers dports) es = Some os -> (forall e, In e es -> entry_benign e) ->
  exists ps, flat_map (fun o => match o with Some p => [p] | None => [] end) os = ps /\ Forall2 parsed_as es ps.
Proof using HS.
  intros dpeers dports es. induction es as [|e es IH]; intros os E B; cbn [mapM] in E.
  - injection E as <-. exists []. split; [reflexivity|constructor].
  - destruct (parse_path ks svcs ns dpeers dports e) as [o|] eqn:Eo; [|discriminate]. cbn [bind] in E. destruct (mapM _ es) as [os'|] eqn:Eos; [|discriminate]. cbn [bind] in E. injection E as <-.
    destruct (parse_path_spec dpeers dports e o Eo (B e (or_introl eq_refl))) as (ip & -> & P). destruct (IH os' eq_refl (fun e' H => B e' (or_intror H))) as (ps & Eps & F).
    exists (ip :: ps). split; [cbn [flat_map app]; rewrite Eps; reflexivity|]. constructor; auto.
Qed.
Lemma forall2_nth : forall {X Y} (P : X -> Y -> Prop) l r, Forall2 P l r -> forall i, match nth_error l i, nth_error r i with Some x, Some y => P x y | None, None => True | _, _ => False end.
Proof using. intros X Y P l r F. induction F as [|x y l r H F IH]; intros [|i]; cbn; auto. apply IH. Qed.
Lemma forall2_in_r : forall {X Y} (P : X -> Y -> Prop) l r y, Forall2 P l r -> In y r -> exists x, In x l /\ P x y.
Proof using. intros X Y P l r y F. induction F as [|a b l r H F IH]; intros []; [subst; exists a; cbn; auto|]. destruct (IH H0) as (x & H1 & H2). exists x. cbn. auto. Qed.
Lemma forall2_in_l : forall {X Y} (P : X -> Y -> Prop) l r x, Forall2 P l r -> In x l -> exists y, In y r /\ P x y.
Proof using. intros X Y P l r x F. induction F as [|a b l r H F IH]; intros []; [subst; exists b; cbn; auto|]. destruct (IH H0) as (y & H1 & H2). exists y. cbn. auto. Qed.
Lemma parsed_routes : forall es ps e ip w, Forall2 parsed_as es ps -> parsed_as e ip -> (routes ps ip w <-> eroutes es e w).
Proof using.
  intros es ps e ip w F P. unfold routes, eroutes. rewrite (parsed_covers e ip w P). split; intros [Hcv N]; split; auto.
  - intros e' He C' B'. destruct (forall2_in_l _ _ _ _ F He) as (ip' & Hi & P'). apply (N ip' Hi); [apply (parsed_covers e' ip' w P'); exact C'|apply (parsed_beats e ip e' ip' P P'); exact B'].
  - intros ip' Hi C' B'. destruct (forall2_in_r _ _ _ _ F Hi) as (e' & He & P'). apply (N e' He); [apply (parsed_covers e' ip' w P'); exact C'|apply (parsed_beats e ip e' ip' P P'); exact B'].
Qed.
Lemma parsed_distinct : forall es ps, Forall2 parsed_as es ps -> paths_benign es -> distinct_prefixes ps.
Proof using.
  intros es ps F [_ D] i j ip ip' Hi Hj X X' E. pose proof (forall2_nth _ _ _ F i) as Pi. pose proof (forall2_nth _ _ _ F j) as Pj. rewrite Hi in Pi. rewrite Hj in Pj.
  destruct (nth_error es i) as [e|] eqn:Ei; [|destruct Pi]. destruct (nth_error es j) as [e'|] eqn:Ej; [|destruct Pj].
  destruct Pi as (p & ty & b & pods & sp & q & P & _ & _ & _ & Po & _ & Di), Pj as (p' & ty' & b' & pods' & sp' & q' & P' & _ & _ & _ & Po' & _ & Dj).
  assert (Np : p <> []) by (destruct p; [discriminate Po|discriminate]). assert (Np' : p' <> []) by (destruct p'; [discriminate Po'|discriminate]).
  destruct Di as [(_ & _ & ->)|(Q & _ & _ & ->)]; [discriminate|]. destruct Dj as [(_ & _ & ->)|(Q' & _ & _ & ->)]; [discriminate|].
  apply (D i j e e' p ty b p' ty' b' Ei Ej P P' Q Q'). rewrite <- (path_elements_spec p Np), <- (path_elements_spec p' Np'). f_equal. exact E.
Qed.
End Paths.
