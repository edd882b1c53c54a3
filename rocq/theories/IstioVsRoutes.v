(** * What the documents of Istio VirtualServices say: destinations, routes and whole documents, and the steps of their parser. *)
From Coq Require Import ZArith List Bool Arith Lia String Ascii.
From Verif Require Import IntervalModel IntervalFacts HyperModel HyperFacts HyperOps HyperDims HyperTop HyperInst PropHyperCube ConnModel ConnFacts TextModel PortProtoModel
                          PeerModel PeerFacts PeerSetFacts PolicyModel PolicyLaws PolicyFacts LayerFacts OrderFacts ConnAlg StdDims PropLayers YamlModel ClusterModel ConnDict
                          SelectorFacts CalicoSelectorSets PropSelectors K8sParserModel K8sParserFacts CalicoSelectorModel CalicoParserModel IstioValueModel PropIstioValues IstioRuleFacts IstioParserModel PropIstioParser
                          ServiceModel PropServices SidecarModel SidecarEgressFacts IngressModel IngressWords PropIngressPaths GatewayFacts IngressFacts IngressDocs PropIngress IstioGwModel IstioGwFacts IstioGwDocs IstioVsDocs.
Import ListNotations.
Local Open Scope string_scope.
Local Open Scope list_scope.
Local Open Scope nat_scope.
Local Opaque min_pod_index max_pod_index min_ipv6_index max_ipv6_index max_ipv4_index v4max v6min v6max.

(** ** Destinations: what is meant *)
Definition dotless (s : string) : Prop := ~ In "."%char (text s).
(** The name and the namespace of the service that a host stands for: a short name, or name.namespace.svc.cluster.local. *)
Definition local_host (ns host a b : string) : Prop :=
  dotless host /\ a = host /\ b = ns \/ exists b', host = (a ++ "." ++ b' ++ ".svc.cluster.local")%string /\ dotless a /\ dotless b' /\ b = ns_name b'.
Definition port_no (dm : dict) : yaml := match yget dm "port" with YMap pm => yget pm "number" | _ => YNull end.
Definition dest_entry (e : yaml) (host : string) (num : yaml) : Prop :=
  exists m dm, e = YMap m /\ yget m "destination" = YMap dm /\ yget dm "host" = YStr host /\ num = port_no dm.
(** The port of the service: by number, or the only one. *)
Definition has_number (num : yaml) (p : sport) : Prop := exists k, yint num = Some k /\ yint (sp_number p) = Some k.
Definition picked (num : yaml) (ports : list sport) (p : sport) : Prop :=
  num = YNull /\ ports = [p] \/ exists a b, ports = a ++ p :: b /\ has_number num p /\ forall q, In q a -> ~ has_number num q.

Lemma has_char_In : forall c s, has_char c s = true <-> In c (text s).
Proof.
  intros c. induction s as [|a s IH]; [cbn; split; [discriminate|intros []]|]. cbn [has_char]. change (text (String a s)) with (a :: text s). cbn [In].
  rewrite orb_true_iff, IH, Ascii.eqb_eq. tauto.
Qed.
Lemma dotless_char : forall s, dotless s <-> has_char "." s = false.
Proof. intros s. unfold dotless. rewrite <- has_char_In. destruct (has_char "." s); split; congruence || tauto. Qed.
Lemma parts_free : forall c s, Forall (fun x => has_char c x = false) (split c s).
Proof.
  intros c. induction s as [|a s IH]; cbn [split]; [constructor; auto|]. destruct (Ascii.eqb a c) eqn:E; [constructor; auto|].
  destruct (split c s) as [|x r]; [constructor; [cbn; rewrite E; auto|constructor]|]. inversion IH; subst. constructor; [cbn; rewrite E; auto|auto].
Qed.
Lemma local_service_spec : forall ns host a b, local_service ns host = Some (a, b) <-> local_host ns host a b.
Proof.
  intros ns host a b. unfold local_service, local_host. split.
  - intros E. pose proof (join_split "." host) as J. pose proof (parts_free "." host) as F.
    destruct (split "." host) as [|x1 [|x2 [|x3 [|x4 [|x5 [|x6 l]]]]]]; try discriminate.
    + injection E as <- <-. cbn [join] in J. subst x1. left. split; [|auto]. apply dotless_char. inversion F; auto.
    + destruct (String.eqb_spec x3 "svc") as [->|]; [|discriminate]. destruct (String.eqb_spec x4 "cluster") as [->|]; [|discriminate]. destruct (String.eqb_spec x5 "local") as [E5|]; [|discriminate]. subst x5.
      cbn [andb] in E. injection E as <- <-. right. exists x2. cbn [join] in J. split; [rewrite <- J; reflexivity|]. inversion F as [|? ? F1 F2]; subst. inversion F2; subst. split; [apply dotless_char; auto|]. split; [apply dotless_char; auto|auto].
  - intros [(D & -> & ->)|(b' & -> & Da & Db & ->)].
    + rewrite TextFacts.split_nochar by (apply dotless_char; exact D). reflexivity.
    + change (a ++ "." ++ b' ++ ".svc.cluster.local")%string with (a ++ String "." (b' ++ String "." "svc.cluster.local"))%string.
      rewrite TextFacts.split_app_char by (apply dotless_char; exact Da). rewrite TextFacts.split_app_char by (apply dotless_char; exact Db). reflexivity.
Qed.
Lemma yint_true : forall y k, yint y = Some k -> (1 <= k)%Z -> ytrue y = true.
Proof. intros [|b|z|z|s|l|m] k E H; try discriminate; cbn in E; injection E as <-; cbn; [destruct b; [reflexivity|lia]|]. apply negb_true_iff. apply Z.eqb_neq. lia. Qed.
Lemma num_ports : forall y k, yint y = Some k -> (1 <= k <= 65535)%Z -> exists q, target_ports y = Some q /\ ports_good q /\ named_ports q = [] /\ forall n, mem n (port_set q) <-> n = k.
Proof.
  intros y k E H. exists (PortSet [Ivl k k] [] []). split; [destruct y; try discriminate; unfold target_ports; rewrite E; reflexivity|]. split.
  - split; [|reflexivity]. split; [cbn; split; [lia|exact Logic.I]|]. intros z Hz. cbn [port_set] in Hz. apply one_mem in Hz. lia.
  - split; auto. intros n. cbn [port_set]. rewrite one_mem. lia.
Qed.

Section Dests.
Context (cl : cluster) (Hc : cluster_ok cl) (ks : list k8s_service) (svcs : list service) (HS : set_services cl ks = Some svcs).
(** The TCP port that the target port of a service stands for at a pod. *)
Definition tport_at (x : point) (p : sport) (n : Z) : Prop :=
  yint (sp_target p) = Some n \/ exists t, sp_target p = YStr t /\ named_at (cl_ports cl) x t n 6%Z.
Definition served_by (ns host : string) (k : k8s_service) : Prop := last_service ks k /\ local_host ns host (ks_name k) (ks_ns k).
Definition external (ns host : string) (x : point) : Prop := (forall a b, ~ local_host ns host a b) /\ x = PN 2 host /\ In (Named 2 host) (cl_peers cl).
(** The pods of a destination and its ports at them. *)
Definition dest_pod (ns : string) (e : yaml) (x : point) : Prop := exists host num, dest_entry e host num /\
  ((exists k pods, served_by ns host k /\ target_pods cl k = Some pods /\ pt_in x pods) \/ external ns host x).
Definition dest_at (ns : string) (e : yaml) (x : point) (n : Z) : Prop := exists host num, dest_entry e host num /\
  ((exists k pods p, served_by ns host k /\ target_pods cl k = Some pods /\ pt_in x pods /\ picked num (ks_ports k) p /\ tport_at x p n) \/ external ns host x /\ yint num = Some n).
(** The number of a port is missing or a number of a port. *)
Definition entry_fine (e : yaml) : Prop := forall host num, dest_entry e host num -> num = YNull \/ exists k, yint num = Some k /\ (1 <= k <= 65535)%Z.
Definition services_fine : Prop := forall k p, In k ks -> In p (ks_ports k) -> ytrue (sp_target p) = true /\ target_good p.
(** What the parser makes of a destination. *)
Definition dest_of (ns : string) (e : yaml) (d : dest) : Prop := (exists num, dest_entry e (ds_name d) num) /\ dest_good cl d /\
  (forall x, pt_in x (ds_pods d) <-> dest_pod ns e x) /\ forall x n, pt_in x (ds_pods d) /\ dport_in (cl_ports cl) (eq 6%Z) x (ds_ports d) n <-> dest_at ns e x n.

Lemma target_at : forall p q, target_ports (sp_target p) = Some q -> target_good p -> ports_good q /\ forall x n, dport_in (cl_ports cl) (eq 6%Z) x q n <-> tport_at x p n.
Proof using.
  intros p q E G. split; [exact (proj1 (target_ports_spec cl p q E G))|]. unfold target_ports in E. unfold tport_at. intros x n. unfold dport_in.
  destruct (sp_target p) as [|b|z|z|t|l|m]; try discriminate E; cbn [yint] in E.
  - injection E as <-. cbn [port_set named_ports In yint]. rewrite one_mem. split; [intros [H|(nm & pr & [] & _)]; left; f_equal; lia|intros [H|(t & Q & _)]; [injection H as <-; left; lia|discriminate]].
  - injection E as <-. cbn [port_set named_ports In yint]. rewrite one_mem. split; [intros [H|(nm & pr & [] & _)]; left; f_equal; lia|intros [H|(t & Q & _)]; [injection H as <-; left; lia|discriminate]].
  - injection E as <-. cbn [port_set named_ports In yint]. rewrite mem_nil. split.
    + intros [[]|(nm & pr & [<-|[]] & <- & H)]. right. exists t. auto.
    + intros [H|(t' & Q & H)]; [discriminate|]. injection Q as <-. right. exists t, 6%Z. auto.
Qed.
Lemma local_fn : forall ns host a b a' b', local_host ns host a b -> local_host ns host a' b' -> a' = a /\ b' = b.
Proof using. intros ns host a b a' b' H H'. apply local_service_spec in H, H'. rewrite H in H'. injection H' as <- <-. auto. Qed.
Lemma served_fn : forall ns host k k', served_by ns host k -> served_by ns host k' -> k' = k.
Proof using. intros ns host k k' [H1 H2] [H1' H2']. destruct (local_fn _ _ _ _ _ _ H2 H2') as [E1 E2]. apply (last_fn ks); auto. Qed.
Lemma entry_fn : forall e h n h' n', dest_entry e h n -> dest_entry e h' n' -> h' = h /\ n' = n.
Proof using.
  intros e h n h' n' (m & dm & -> & E1 & E2 & ->) (m' & dm' & Q & E1' & E2' & ->). injection Q as <-. rewrite E1 in E1'. injection E1' as <-. rewrite E2 in E2'. injection E2' as <-. auto.
Qed.
Lemma find_number : forall ports num p, find_port ports YNull num = Some p <-> exists a b, ports = a ++ p :: b /\ has_number num p /\ forall q, In q a -> ~ has_number num q.
Proof using.
  intros ports num p. unfold find_port. apply find_first. intros x. unfold has_number. destruct (yint (sp_number x)) as [a|], (yint num) as [b|]; try (split; [discriminate|intros (k & E1 & E2); discriminate]).
  rewrite Z.eqb_eq. split; [intros ->; eauto|intros (k & E1 & E2); congruence].
Qed.
Lemma no_ports : ports_good (PortSet [] [] []) /\ forall x n, ~ dport_in (cl_ports cl) (eq 6%Z) x (PortSet [] [] []) n.
Proof using.
  split; [split; [split; [exact Logic.I|intros z Hz; destruct (proj1 (mem_nil z) Hz)]|reflexivity]|]. intros x n [H|(nm & pr & [] & _)]. exact (proj1 (mem_nil n) H).
Qed.

Definition dests_step (ns : string) (e : yaml) (r r' : route) : Prop :=
  (r' = r /\ forall x, ~ dest_pod ns e x) \/
  exists d loc, r' = Route (Some loc) (rt_dests r ++ [d]) (rt_uri r) (rt_methods r) (rt_sni r) (rt_gateways r) /\ (rt_internal r = None \/ rt_internal r = Some loc) /\
    dest_of ns e d /\ (loc = true <-> exists a b, local_host ns (ds_name d) a b).
Lemma add_destination_inv : forall r name pods port loc r', add_destination r name pods port loc = Some r' ->
  exists q, (if ytrue port then target_ports port else Some (PortSet [] [] [])) = Some q /\
    r' = Route (Some loc) (rt_dests r ++ [Dest name pods q]) (rt_uri r) (rt_methods r) (rt_sni r) (rt_gateways r) /\ (rt_internal r = None \/ rt_internal r = Some loc).
Proof using.
  intros r name pods port loc r' E. unfold add_destination in E. match type of E with bind ?e _ = _ => destruct e as [q|]; [|discriminate] end. cbn [bind] in E. exists q. split; auto.
  destruct (rt_internal r) as [b|]; [destruct (Bool.eqb b loc) eqn:Eb; [apply Bool.eqb_prop in Eb; subst b|discriminate]|]; injection E as <-; auto.
Qed.
Lemma parse_destination_spec : forall ns r m r', parse_destination cl ks svcs ns r (yget m "destination") = Some r' -> entry_fine (YMap m) -> services_fine -> dests_step ns (YMap m) r r'.
Proof using Hc HS.
  intros ns r m r' E F SF. unfold parse_destination in E. match type of E with bind ?e _ = _ => destruct e as [dm|] eqn:Ed; [|discriminate] end. cbn [bind] in E. apply check_fields_map in Ed as [Ed _].
  match type of E with bind ?e _ = _ => destruct e as [num|] eqn:En; [|discriminate] end. cbn [bind] in E.
  assert (Qn : num = port_no dm).
  { unfold port_no. destruct (yget dm "port") as [|b|z|z|s|l|pm]; try (match type of En with (if ?c then _ else _) = _ => destruct c end; [discriminate|]); injection En as <-; reflexivity. }
  clear En. destruct (yget dm "host") as [| | | |host| |] eqn:Eh; try discriminate. destruct (has_star (text host)) eqn:St; [discriminate|].
  assert (De : dest_entry (YMap m) host num) by (exists m, dm; auto). pose proof (F host num De) as Fn.
  assert (Only : forall h n, dest_entry (YMap m) h n -> h = host /\ n = num) by (intros h n H; exact (entry_fn _ _ _ _ _ De H)).
  unfold dests_step. destruct (local_service ns host) as [[a b]|] eqn:El.
  - pose proof (proj1 (local_service_spec ns host a b) El) as Lh. destruct (String.eqb a ""); [discriminate|].
    assert (NoExt : forall x, ~ external ns host x) by (intros x [H _]; exact (H a b Lh)).
    destruct (find_service ks svcs b a) as [[ports pods]|] eqn:Ef.
    + apply (find_service_spec cl ks svcs HS) in Ef as (k & Lk & N1 & N2 & Tk & ->). assert (Sk : served_by ns host k) by (split; [exact Lk|rewrite N1, N2; exact Lh]).
      assert (Ik : In k ks) by (destruct Lk as (u & v & -> & _); apply in_or_app; right; left; reflexivity).
      match type of E with bind ?e _ = _ => destruct e as [t|] eqn:Et; [|discriminate] end. cbn [bind] in E. cbv zeta in E.
      apply add_destination_inv in E as (q & Eq & -> & Ei). right. exists (Dest host pods q), true. split; [reflexivity|]. split; [exact Ei|]. split; [|split; [intros _; exists a, b; exact Lh|reflexivity]].
      destruct (target_pods_spec cl Hc k pods Tk) as [Pp Mp].
      assert (Pods : forall x, pt_in x pods <-> dest_pod ns (YMap m) x).
      { intros x. split.
        - intros H. exists host, num. split; auto. left. exists k, pods. auto.
        - intros (h & n & D & H). destruct (Only h n D) as [-> ->]. destruct H as [(k' & pods' & S' & T' & H)|H]; [|destruct (NoExt x H)]. rewrite (served_fn _ _ _ _ Sk S') in T'. rewrite Tk in T'. injection T' as <-. exact H. }
      assert (At : forall x n, dest_at ns (YMap m) x n <-> pt_in x pods /\ exists p, picked num (ks_ports k) p /\ tport_at x p n).
      { intros x n. split.
        - intros (h & n' & D & H). destruct (Only h n' D) as [-> ->]. destruct H as [(k' & pods' & p & S' & T' & H1 & H2 & H3)|[H _]]; [|destruct (NoExt x H)].
          rewrite (served_fn _ _ _ _ Sk S') in *. rewrite Tk in T'. injection T' as <-. split; [exact H1|]. exists p. auto.
        - intros (H1 & p & H2 & H3). exists host, num. split; auto. left. exists k, pods, p. auto. }
      assert (Port : ports_good q /\ forall x n, dport_in (cl_ports cl) (eq 6%Z) x q n <-> exists p, picked num (ks_ports k) p /\ tport_at x p n).
      { destruct Fn as [->|(z & Ez & Rz)].
        - cbn in Et. injection Et as <-. cbn [ytrue] in Eq.
          assert (One : forall p, picked YNull (ks_ports k) p -> ks_ports k = [p]) by (intros p [[_ H]|(u & v & _ & (j & H & _) & _)]; [exact H|discriminate]).
          destruct (single_port (ks_ports k)) as [p|] eqn:Es.
          + assert (Ep : ks_ports k = [p]) by (destruct (ks_ports k) as [|p0 [|p1 l]]; try discriminate; injection Es as ->; reflexivity).
            destruct (SF k p Ik) as [S1 S2]; [rewrite Ep; left; reflexivity|]. rewrite S1 in Eq. destruct (target_at p q Eq S2) as [G1 G2]. split; auto. intros x n. rewrite G2. split.
            * intros H. exists p. split; [left; auto|exact H].
            * intros (p' & H1 & H2). apply One in H1. rewrite Ep in H1. injection H1 as <-. exact H2.
          + cbn [ytrue] in Eq. injection Eq as <-. split; [apply no_ports|]. intros x n. split; [intros H; destruct (proj2 no_ports x n H)|]. intros (p' & H1 & _). apply One in H1. rewrite H1 in Es. discriminate.
        - rewrite (yint_true num z Ez) in Et by lia. destruct (find_port (ks_ports k) YNull num) as [p|] eqn:Ep; [|discriminate]. cbn [option_map] in Et. injection Et as <-.
          assert (Ip : In p (ks_ports k)) by (apply find_number in Ep as (u & v & -> & _); apply in_or_app; right; left; reflexivity).
          destruct (SF k p Ik Ip) as [S1 S2]. rewrite S1 in Eq. rewrite S1 in Eq. destruct (target_at p q Eq S2) as [G1 G2]. split; auto. intros x n. rewrite G2. split.
          + intros H. exists p. split; [right; apply find_number; exact Ep|exact H].
          + intros (p' & [[-> _]|H1] & H2); [discriminate|]. apply find_number in H1. rewrite Ep in H1. injection H1 as <-. exact H2. }
      destruct Port as [G1 G2]. split; [exists num; exact De|]. cbn [ds_pods ds_ports]. split; [split; [split; [exact Pp|]|exact G1]|].
      * intros z Hz. apply Mp in Hz. apply Hz.
      * split; [exact Pods|]. intros x n. rewrite At, G2. reflexivity.
    + injection E as <-. left. split; auto. intros x (h & n & D & H). destruct (Only h n D) as [-> ->]. destruct H as [(k' & pods' & [S1 S2] & T' & _)|H]; [|exact (NoExt x H)].
      destruct (local_fn _ _ _ _ _ _ Lh S2) as [Q1 Q2]. assert (X : find_service ks svcs b a = Some (ks_ports k', pods')) by (apply (find_service_spec cl ks svcs HS); exists k'; auto). congruence.
  - assert (NL : forall a b, ~ local_host ns host a b) by (intros a b H; apply local_service_spec in H; congruence).
    assert (Dm : forall q, In q (dns_matching cl host) <-> q = Named 2 host /\ In q (cl_peers cl)).
    { intros q. rewrite (dns_matching_In cl Hc). split.
      - intros (d & -> & H1 & H2). rewrite orb_true_iff, String.eqb_eq in H2. assert (Qd : d = host).
        { destruct H2 as [H2|H2]; [exact H2|]. unfold host_fullmatch in H2. destruct host as [|c rest]; [symmetry; apply String.eqb_eq; exact H2|].
          destruct (Ascii.eqb_spec c "*") as [->|_]; [discriminate St|symmetry; apply String.eqb_eq; exact H2]. }
        subst d. auto.
      - intros [-> H]. exists host. split; auto. split; auto. rewrite String.eqb_refl. reflexivity. }
    destruct (dns_matching cl host) as [|p0 s0] eqn:Es.
    + injection E as <-. left. split; auto. intros x (h & n & D & H). destruct (Only h n D) as [-> ->]. destruct H as [(k' & pods' & [_ S2] & _)|(_ & _ & H)]; [exact (NL _ _ S2)|]. apply (Dm (Named 2 host)). auto.
    + set (s := p0 :: s0) in *. apply add_destination_inv in E as (q & Eq & -> & Ei). right. exists (Dest host s q), false. split; [reflexivity|]. split; [exact Ei|]. split; [|split; [discriminate|intros (a & b & H); destruct (NL a b H)]].
      assert (Ih : In (Named 2 host) (cl_peers cl)) by (destruct (proj1 (Dm p0) (or_introl eq_refl)) as [-> H]; exact H).
      assert (Ps : plain s) by (intros z Hz; apply Dm in Hz as [-> _]; reflexivity).
      assert (Pt : forall x, pt_in x s <-> external ns host x).
      { intros x. rewrite (plain_pt s x Ps). split.
        - intros (z & Hz & k & i & -> & ->). apply Dm in Hz as [Q Hz]. injection Q as -> ->. split; auto.
        - intros (_ & -> & H). exists (Named 2 host). split; [apply Dm; auto|]. exists 2, host. auto. }
      assert (Pods : forall x, pt_in x s <-> dest_pod ns (YMap m) x).
      { intros x. rewrite Pt. split.
        - intros H. exists host, num. split; auto.
        - intros (h & n & D & H). destruct (Only h n D) as [-> ->]. destruct H as [(k' & pods' & [_ S2] & _)|H]; [destruct (NL _ _ S2)|exact H]. }
      assert (At : forall x n, dest_at ns (YMap m) x n <-> external ns host x /\ yint num = Some n).
      { intros x n. split.
        - intros (h & n' & D & H). destruct (Only h n' D) as [-> ->]. destruct H as [(k' & pods' & p & [_ S2] & _)|H]; [destruct (NL _ _ S2)|exact H].
        - intros H. exists host, num. split; auto. }
      assert (Port : ports_good q /\ forall x n, dport_in (cl_ports cl) (eq 6%Z) x q n <-> yint num = Some n).
      { destruct Fn as [->|(z & Ez & Rz)].
        - cbn [ytrue] in Eq. injection Eq as <-. split; [apply no_ports|]. intros x n. split; [intros H; destruct (proj2 no_ports x n H)|discriminate].
        - rewrite (yint_true num z Ez) in Eq by lia. destruct (num_ports num z Ez Rz) as (q' & Eq' & G1 & G2 & G3). rewrite Eq' in Eq. injection Eq as <-. split; auto. intros x n. unfold dport_in. rewrite G2, G3, Ez. split.
          + intros [->|(nm & pr & [] & _)]. reflexivity.
          + intros H. injection H as <-. auto. }
      destruct Port as [G1 G2]. split; [exists num; exact De|]. cbn [ds_pods ds_ports]. split; [split; [split; [exact Ps|]|exact G1]|].
      * intros z Hz. apply Dm in Hz as [_ Hz]. exact Hz.
      * split; [exact Pods|]. intros x n. rewrite At, G2, Pt. reflexivity.
Qed.
(** The destinations of a route. *)
Definition dests_state (ns : string) (es : list yaml) (r : route) : Prop :=
  (forall d, In d (rt_dests r) -> exists e, In e es /\ dest_of ns e d) /\ (forall d a b, In d (rt_dests r) -> local_host ns (ds_name d) a b -> rt_internal r = Some true) /\
  forall e, In e es -> (exists d, In d (rt_dests r) /\ dest_of ns e d) \/ forall x, ~ dest_pod ns e x.
Lemma items_list : forall y l, items_of y = Some l -> ylist y = l.
Proof using. intros [|b|z|z|s|l0|m] l E; cbn [items_of] in E; try (match type of E with (if ?c then _ else _) = _ => destruct c end; [discriminate|]); injection E as <-; reflexivity. Qed.
Definition kept (r0 r : route) : Prop := rt_uri r = rt_uri r0 /\ rt_methods r = rt_methods r0 /\ rt_sni r = rt_sni r0 /\ rt_gateways r = rt_gateways r0.
Lemma route_destinations_spec : forall ns http rm r0 r, route_destinations cl ks svcs ns http rm r0 = Some r -> rt_dests r0 = [] -> (forall e, In e (ylist (yget rm "route")) -> entry_fine e) -> services_fine ->
  kept r0 r /\ dests_state ns (ylist (yget rm "route")) r.
Proof using Hc HS.
  intros ns http rm r0 r E D0 F SF. unfold route_destinations in E. destruct (items_of (yget rm "route")) as [es|] eqn:Ei; [|discriminate]. cbn [bind] in E. rewrite (items_list _ _ Ei) in *. clear Ei.
  match type of E with fold_left ?f _ _ = _ => set (step := f) in * end.
  assert (NN : forall l, fold_left step l None = None) by (induction l; auto).
  assert (G : forall t d r1, (forall e, In e t -> entry_fine e) -> kept r0 r1 -> dests_state ns d r1 -> fold_left step t (Some r1) = Some r -> kept r0 r /\ dests_state ns (d ++ t) r).
  { induction t as [|e t IH]; intros d r1 Ft K1 S1 Ef; cbn [fold_left] in Ef; [injection Ef as <-; rewrite app_nil_r; auto|].
    destruct (step (Some r1) e) as [r2|] eqn:E2; [|rewrite NN in Ef; discriminate].
    assert (X : dests_step ns e r1 r2).
    { unfold step in E2. cbn [bind] in E2. match type of E2 with bind ?q _ = _ => destruct q as [m|] eqn:Em; [|discriminate] end. cbn [bind] in E2. apply check_fields_map in Em as [-> _].
      apply parse_destination_spec; auto. apply Ft. left. reflexivity. }
    replace (d ++ e :: t) with ((d ++ [e]) ++ t) by (rewrite <- app_assoc; reflexivity). destruct S1 as (S1 & S2 & S3).
    apply (IH (d ++ [e]) r2); auto; [intros e' H; apply Ft; right; exact H| |]; clear IH Ef.
    - destruct X as [[-> _]|(dd & loc & -> & _)]; [exact K1|exact K1].
    - destruct X as [[-> N]|(dd & loc & -> & Ei & Do & Lo)]; (split; [|split]).
      + intros d' H. destruct (S1 d' H) as (e' & H1 & H2). exists e'. split; [apply in_or_app; auto|exact H2].
      + exact S2.
      + intros e' H. apply in_app_or in H as [H|[<-|[]]]; auto.
      + cbn [rt_dests]. intros d' H. apply in_app_or in H as [H|[<-|[]]]; [destruct (S1 d' H) as (e' & H1 & H2); exists e'; split; [apply in_or_app; auto|exact H2]|exists e; split; [apply in_or_app; right; left; reflexivity|exact Do]].
      + cbn [rt_dests rt_internal]. intros d' a b H L. apply in_app_or in H as [H|[<-|[]]]; [|f_equal; apply Lo; eauto]. pose proof (S2 d' a b H L) as X. destruct Ei; congruence.
      + cbn [rt_dests]. intros e' H. apply in_app_or in H as [H|[<-|[]]]; [destruct (S3 e' H) as [(d' & H1 & H2)|H1]; [left; exists d'; split; [apply in_or_app; auto|exact H2]|auto]|]. left. exists dd. split; [apply in_or_app; right; left; reflexivity|exact Do]. }
  apply (G es [] r0); auto; [split; auto|]. unfold dests_state. rewrite D0. split; [intros d []|]. split; [intros d a b []|intros e []].
Qed.
End Dests.

(** ** Routes *)
Inductive rkind := RHttp | RTls | RTcp.
Definition kind_key (k : rkind) : string := match k with RHttp => "http" | RTls => "tls" | RTcp => "tcp" end.
Definition entries (sp : dict) (k : rkind) : list yaml := ylist (yget sp (kind_key k)).
Definition match_items (y : yaml) : list yaml := match y with YMap m => ylist (yget m "match") | _ => [] end.
Definition dest_items (y : yaml) : list yaml := match y with YMap m => ylist (yget m "route") | _ => [] end.
Definition tcp_takes (ns : string) (sp : dict) (ys : list yaml) (n : string) : Prop := ys = [] /\ vs_bound ns sp n \/ exists y, In y ys /\ item_bound ns sp y n.
(** The route takes a request at the gateway [n], with this host, path and method. *)
Definition route_takes (ns : string) (sp : dict) (k : rkind) (y : yaml) (n : string) (h w : word) (me : Z) : Prop :=
  match k with RHttp => http_takes ns sp (match_items y) n w me | RTls => tls_takes ns sp (match_items y) n h | RTcp => tcp_takes ns sp (match_items y) n end.
Definition fair_route (k : rkind) (y : yaml) (w : word) : Prop := k = RHttp -> path_fair (match_items y) w.

Section Routes.
Context (code : word -> Z) (dfa : list ascii -> val) (CO : code_ok code) (C0 : code [] = 0%Z).
Context (rematch : list ascii -> list ascii -> bool).
Context (RM : forall l name t name', l <> [] -> In name all_methods -> text name = l ++ t -> In name' all_methods ->
  rematch l (text name') = starts_with l (text name') /\ rematch (l ++ allowed_chars ++ ["*"%char]) (text name') = starts_with l (text name')).
Context (cl : cluster) (Hc : cluster_ok cl) (ks : list k8s_service) (svcs : list service) (HS : set_services cl ks = Some svcs) (SF : services_fine ks).

(** Routes outside the findings. *)
Definition route_benign (hl : list yaml) (ns : string) (sp : dict) (k : rkind) (y : yaml) : Prop := (forall e, In e (dest_items y) -> entry_fine e) /\
  match k with
  | RHttp => (forall it, In it (match_items y) -> uri_benign code dfa it /\ method_benign it) /\ http_whole ns sp (match_items y)
  | RTls => (forall it, In it (match_items y) -> sni_benign hl it) /\ tls_whole ns sp (match_items y)
  | RTcp => all_or_none own_gateways (match_items y)
  end.
Definition route_of (hl : list yaml) (ns : string) (sp : dict) (gws : list string) (k : rkind) (y : yaml) (r : route) : Prop :=
  route_good cl r /\ dests_state cl ks ns (dest_items y) r /\
  forall n h w me, fair_for hl h -> fair_route k y w ->
    (In n (names_of gws (rt_gateways r)) /\ opt (val_mem (code w)) (rt_uri r) /\ opt (mem me) (rt_methods r) /\ opt (val_mem (code h)) (rt_sni r) <-> route_takes ns sp k y n h w me).
Lemma state_good : forall ns es r, dests_state cl ks ns es r -> opt (word_set std_dom 7) (rt_uri r) -> opt (fun m => m <> [] /\ ConnDict.in_range 0 8 m) (rt_methods r) -> opt host_set (rt_sni r) -> route_good cl r.
Proof using. intros ns es r (S & _) H1 H2 H3. split; [|auto]. intros d Hd. destruct (S d Hd) as (e & _ & D). apply D. Qed.
Lemma http_route_spec : forall hl ns sp gws y r, http_route std_dom cl ks svcs dfa rematch ns y = Some r -> (forall n, In n gws <-> vs_bound ns sp n) -> route_benign hl ns sp RHttp y -> route_of hl ns sp gws RHttp y r.
Proof using CO RM Hc HS SF.
  intros hl ns sp gws y r E G (Bd & Bm & Bw). unfold http_route in E. match type of E with bind ?e _ = _ => destruct e as [m|] eqn:Em; [|discriminate] end. cbn [bind] in E. apply check_fields_map in Em as [-> _].
  cbn [match_items dest_items] in *. destruct (items_of (yget m "match")) as [ys|] eqn:Ei; [|discriminate]. cbn [bind] in E. rewrite (items_list _ _ Ei) in *.
  match type of E with bind ?e _ = _ => destruct e as [r0|] eqn:E0; [|discriminate] end. cbn [bind] in E.
  pose proof (http_matches_spec code dfa CO rematch RM ns ys r0 E0 Bm) as S. pose proof S as S'. destruct S' as ((_ & D0 & _) & _).
  destruct (route_destinations_spec cl Hc ks svcs HS ns true m r0 r E D0 Bd SF) as [(K1 & K2 & K3 & K4) Ds]. destruct (http_route_good code ns ys r0 S) as (G1 & G2 & G3).
  split; [apply (state_good ns _ r Ds); rewrite ?K1, ?K2, ?K3, ?G3; cbn [opt]; auto|]. split; [exact Ds|]. intros n h w me _ Fw. rewrite K1, K2, K3, K4, G3. cbn [opt route_takes match_items]. rewrite (items_list _ _ Ei).
  specialize (Fw eq_refl). cbn [match_items] in Fw. rewrite (items_list _ _ Ei) in Fw. rewrite <- (http_request code ns sp ys r0 gws S Bw G n w me Fw). tauto.
Qed.
Lemma tls_route_spec : forall hl hosts ns sp gws y o, vs_hosts_of std_dom dfa hl = Some hosts -> hosts_benign code dfa hl -> tls_route std_dom cl ks svcs dfa ns hosts y = Some o ->
  (forall n, In n gws <-> vs_bound ns sp n) -> route_benign hl ns sp RTls y -> match o with Some r => route_of hl ns sp gws RTls y r | None => match_items y = [] end.
Proof using CO C0 Hc HS SF.
  intros hl hosts ns sp gws y o Eh Bh E G (Bd & Bm & Bw). unfold tls_route in E. match type of E with bind ?e _ = _ => destruct e as [m|] eqn:Em; [|discriminate] end. cbn [bind] in E. apply check_fields_map in Em as [-> _].
  unfold route_of. cbn [match_items dest_items] in *. destruct (items_of (yget m "match")) as [ys|] eqn:Ei; [|discriminate]. cbn [bind] in E. rewrite (items_list _ _ Ei) in *.
  destruct ys as [|y0 t0] eqn:Ey; [injection E as <-; reflexivity|]. rewrite <- Ey in *. assert (NE : ys <> []) by (rewrite Ey; discriminate). clear Ey.
  match type of E with bind ?e _ = _ => destruct e as [o0|] eqn:E0; [|discriminate] end. cbn [bind] in E.
  destruct (tls_matches_spec code dfa CO C0 ns hl hosts Eh Bh ys o0 E0 Bm) as (r0 & -> & S). destruct (route_destinations _ _ _ _ _ _ _) as [r|] eqn:Er; [|discriminate]. cbn [option_map] in E. injection E as <-.
  pose proof S as S'. destruct S' as ((_ & D0 & U0 & M0) & H0 & _).
  destruct (route_destinations_spec cl Hc ks svcs HS ns false m r0 r Er D0 Bd SF) as [(K1 & K2 & K3 & K4) Ds].
  split; [apply (state_good ns _ r Ds); rewrite ?K1, ?K2, ?K3, ?U0, ?M0; cbn [opt]; auto|]. split; [exact Ds|]. intros n h w me Fh _. rewrite K1, K2, K3, K4, U0, M0. cbn [opt route_takes match_items]. rewrite (items_list _ _ Ei).
  rewrite <- (tls_request code dfa CO C0 ns sp hl ys r0 gws Bh Bm NE S Bw G n h Fh). tauto.
Qed.
Lemma l4_matches_spec : forall ns ys r, fold_left (fun acc y => bind acc (fun r => l4_match ns r y)) ys (Some route0) = Some r ->
  (rt_internal r = None /\ rt_dests r = [] /\ rt_uri r = None /\ rt_methods r = None /\ rt_sni r = None) /\
  (forall n, In n (rt_gateways r) <-> exists y, In y ys /\ names_say ns (item_gateways y) n) /\ (rt_gateways r = [] <-> forall y, In y ys -> item_gateways y = []).
Proof using.
  intros ns ys r E. set (st := fun (t : list yaml) (r : route) => (rt_internal r = None /\ rt_dests r = [] /\ rt_uri r = None /\ rt_methods r = None /\ rt_sni r = None) /\
    (forall n, In n (rt_gateways r) <-> exists y, In y t /\ names_say ns (item_gateways y) n) /\ (rt_gateways r = [] <-> forall y, In y t -> item_gateways y = [])). change (st ys r).
  match type of E with fold_left ?f _ _ = _ => set (step := f) in * end. assert (NN : forall l, fold_left step l None = None) by (induction l; auto).
  assert (G : forall t d r1, st d r1 -> fold_left step t (Some r1) = Some r -> st (d ++ t) r).
  { induction t as [|y t IH]; intros d r1 S Ef; cbn [fold_left] in Ef; [injection Ef as <-; rewrite app_nil_r; exact S|].
    destruct (step (Some r1) y) as [r2|] eqn:E2; [|rewrite NN in Ef; discriminate]. replace (d ++ y :: t) with ((d ++ [y]) ++ t) by (rewrite <- app_assoc; reflexivity).
    apply (IH _ r2); auto. clear IH Ef. unfold step, l4_match in E2. cbn [bind] in E2. match type of E2 with bind ?q _ = _ => destruct q as [m|] eqn:Em; [|discriminate] end. cbn [bind] in E2. apply check_fields_map in Em as [-> _].
    destruct (vs_gateway_names ns m false (rt_gateways r1)) as [gws|] eqn:Eg; [|discriminate]. cbn [bind] in E2. injection E2 as <-. destruct S as (S1 & Sg & Sz). destruct (gateway_names_spec _ _ _ _ _ Eg) as [G1 G2].
    split; [exact S1|]. cbn [rt_gateways]. split.
    - intros n. rewrite G1, Sg, app_In1. cbn [item_gateways]. split; [intros [H|[H|(_ & H & _)]]; auto; discriminate|intros [H|H]; auto].
    - rewrite G2, Sz, app_all1. cbn [item_gateways]. tauto. }
  apply (G ys [] route0); auto. split; [repeat split|]. cbn [rt_gateways route0]. split; [intros n; split; [intros []|intros (y & [] & _)]|]. split; [intros _ y []|reflexivity].
Qed.
Lemma tcp_route_spec : forall hl ns sp gws y r, tcp_route cl ks svcs ns y = Some r -> (forall n, In n gws <-> vs_bound ns sp n) -> route_benign hl ns sp RTcp y -> route_of hl ns sp gws RTcp y r.
Proof using Hc HS SF.
  intros hl ns sp gws y r E G (Bd & Bm). unfold tcp_route in E. match type of E with bind ?e _ = _ => destruct e as [m|] eqn:Em; [|discriminate] end. cbn [bind] in E. apply check_fields_map in Em as [-> _].
  unfold route_of. cbn [match_items dest_items] in *. destruct (items_of (yget m "match")) as [ys|] eqn:Ei; [|discriminate]. cbn [bind] in E. rewrite (items_list _ _ Ei) in *.
  match type of E with bind ?e _ = _ => destruct e as [r0|] eqn:E0; [|discriminate] end. cbn [bind] in E.
  destruct (l4_matches_spec ns ys r0 E0) as ((_ & D0 & U0 & M0 & H0) & Sg & Sz).
  destruct (route_destinations_spec cl Hc ks svcs HS ns false m r0 r E D0 Bd SF) as [(K1 & K2 & K3 & K4) Ds].
  split; [apply (state_good ns _ r Ds); rewrite ?K1, ?K2, ?K3, ?U0, ?M0, ?H0; cbn [opt]; auto|]. split; [exact Ds|]. intros n h w me _ _. rewrite K1, K2, K3, K4, U0, M0, H0. cbn [opt route_takes match_items]. rewrite (items_list _ _ Ei).
  unfold tcp_takes. destruct ys as [|y0 t0] eqn:Ey.
  - rewrite (proj2 Sz) by (intros y []). cbn [names_of]. rewrite G. split; [intros [H _]; auto|intros [[_ H]|(y & [] & _)]; auto].
  - rewrite <- Ey in *. assert (NE : ys <> []) by (rewrite Ey; discriminate). clear Ey. unfold names_of. rewrite (names_item ns sp gws (rt_gateways r0) ys NE Bm G Sg Sz n). split; [intros [H _]; auto|intros [[H _]|H]; [congruence|auto]].
Qed.

(** ** Whole documents *)
Lemma mapM_made : forall {X Y} (f : X -> option Y) l rs, mapM f l = Some rs -> (forall r, In r rs -> exists y, In y l /\ f y = Some r) /\ forall y, In y l -> exists r, In r rs /\ f y = Some r.
Proof using.
  intros X Y f. induction l as [|y l IH]; intros rs E; cbn [mapM] in E; [injection E as <-; split; [intros r []|intros y []]|].
  destruct (f y) as [r|] eqn:Ey; [|discriminate]. cbn [bind] in E. destruct (mapM f l) as [rs'|]; [|discriminate]. cbn [bind] in E. injection E as <-. destruct (IH rs' eq_refl) as [I1 I2]. split.
  - intros r' [<-|H]; [exists y; split; [left; auto|auto]|]. destruct (I1 r' H) as (y' & H1 & H2). exists y'. split; [right|]; auto.
  - intros y' [<-|H]; [exists r; split; [left; auto|auto]|]. destruct (I2 y' H) as (r' & H1 & H2). exists r'. split; [right|]; auto.
Qed.
Definition host_list (sp : dict) : list yaml := ylist (yget sp "hosts").
Definition vs_benign (ns : string) (sp : dict) : Prop := hosts_benign code dfa (host_list sp) /\ forall k y, In y (entries sp k) -> route_benign (host_list sp) ns sp k y.
(** What the parser makes of a VirtualService. *)
Definition vs_made (ns : string) (sp : dict) (vs : vservice) : Prop := vs_good cl vs /\
  (forall h, fair_for (host_list sp) h -> (vs_host vs (code h) <-> hosts_say (host_list sp) h)) /\ (forall n, In n (vs_gateways vs) <-> vs_bound ns sp n) /\
  (forall r, In r (routes_of vs) -> exists k y, In y (entries sp k) /\ route_of (host_list sp) ns sp (vs_gateways vs) k y r) /\
  forall k y, In y (entries sp k) -> (exists r, In r (routes_of vs) /\ route_of (host_list sp) ns sp (vs_gateways vs) k y r) \/ k = RTls /\ match_items y = [].
Definition vs_doc (y : yaml) (name ns : string) (sp : dict) : Prop := istio_doc "VirtualService" y name ns sp.
Definition vs_of (y : yaml) (vs : vservice) : Prop := exists name ns sp, vs_doc y name ns sp /\ vs_name vs = slash_name ns name /\ (vs_benign ns sp -> vs_made ns sp vs).
Lemma parse_vs_spec : forall l y l', parse_virtual_service std_dom cl ks svcs dfa rematch l y = Some l' ->
  (l' = l /\ forall name ns sp, ~ vs_doc y name ns sp) \/ exists vs, vs_of y vs /\ l' = put_named vs_name vs l.
Proof using CO C0 RM Hc HS SF.
  intros l y l' E. unfold parse_virtual_service in E. match type of E with bind ?e _ = _ => destruct e as [o|] eqn:Eg; [|discriminate] end. cbn [bind] in E.
  pose proof (istio_doc_inv _ _ _ Eg) as D. destruct o as [[[m name] nsy]|].
  2:{ left. injection E as <-. split; auto. }
  destruct nsy as [| | | |t| |]; try discriminate. cbv zeta in E. match type of E with bind ?e _ = _ => destruct e as [sp|] eqn:Es; [|discriminate] end. cbn [bind] in E. apply check_fields_map in Es as [Es _].
  specialize (D t sp eq_refl Es). set (ns := ns_name t) in *. clearbody ns.
  match type of E with bind ?e _ = _ => destruct e as [hosts|] eqn:Eh; [|discriminate] end. cbn [bind] in E.
  match type of E with bind ?e _ = _ => destruct e as [gws|] eqn:Egw; [|discriminate] end. cbn [bind] in E.
  match type of E with bind ?e _ = _ => destruct e as [http|] eqn:E1; [|discriminate] end. cbn [bind] in E.
  match type of E with bind ?e _ = _ => destruct e as [tls|] eqn:E2; [|discriminate] end. cbn [bind] in E.
  match type of E with bind ?e _ = _ => destruct e as [tcp|] eqn:E3; [|discriminate] end. cbn [bind] in E. injection E as <-.
  right. eexists. split; [|reflexivity]. exists name, ns, sp. split; [exact D|]. split; [reflexivity|]. intros [Bh Br].
  destruct (items_of (yget sp "http")) as [l1|] eqn:I1; [|discriminate]. destruct (items_of (yget sp "tls")) as [l2|] eqn:I2; [|discriminate]. destruct (items_of (yget sp "tcp")) as [l3|] eqn:I3; [|discriminate]. cbn [bind] in E1, E2, E3.
  apply items_list in I1, I2, I3. apply mapM_made in E1 as [H1 H1']. apply mapM_made in E2 as [H2 H2']. apply mapM_made in E3 as [H3 H3'].
  destruct (gateway_names_spec _ _ _ _ _ Egw) as [G1 G2].
  assert (G : forall n, In n gws <-> vs_bound ns sp n). { intros n. rewrite G1. unfold vs_bound. cbn [In]. split; [intros [[]|[H|(H & _ & H')]]; auto|intros [H|[H H']]; auto]. }
  destruct (vs_hosts_spec code dfa CO C0 _ _ Eh Bh) as (_ & V1 & V2).
  set (vs := VS _ _ _ _ _ _ _). set (hl := host_list sp) in *.
  assert (A : forall r, In r (routes_of vs) -> exists k y, In y (entries sp k) /\ route_of hl ns sp gws k y r).
  { intros r Hr. unfold routes_of, vs in Hr. cbn [vs_http vs_tls vs_tcp] in Hr. rewrite !in_app_iff in Hr. destruct Hr as [Hr|[Hr|Hr]].
    - destruct (H1 r Hr) as (e & He & Er). rewrite <- I1 in He. exists RHttp, e. split; [exact He|]. apply http_route_spec; [exact Er|exact G|exact (Br RHttp e He)].
    - apply in_flat_map in Hr as (o & Ho & Hr). destruct (H2 o Ho) as (e & He & Er). rewrite <- I2 in He. exists RTls, e. split; [exact He|].
      pose proof (tls_route_spec hl hosts ns sp gws e o Eh Bh Er G (Br RTls e He)) as X. destruct o as [r'|]; [|destruct Hr]. destruct Hr as [<-|[]]. exact X.
    - destruct (H3 r Hr) as (e & He & Er). rewrite <- I3 in He. exists RTcp, e. split; [exact He|]. apply tcp_route_spec; [exact Er|exact G|exact (Br RTcp e He)]. }
  split; [|split; [|split; [exact G|split; [exact A|]]]].
  - split; [exact V1|]. split; [intros X; change (gws = []) in X; apply G2 in X as (_ & _ & X); discriminate|]. intros r Hr. destruct (A r Hr) as (k & e & _ & X). apply X.
  - intros h Fh. exact (V2 h Fh).
  - intros k e He. destruct k.
    + rewrite <- I1 in H1'. destruct (H1' e He) as (r & Hr & Er). left. exists r. split; [unfold routes_of; rewrite !in_app_iff; left; exact Hr|]. apply http_route_spec; [exact Er|exact G|exact (Br RHttp e He)].
    + rewrite <- I2 in H2'. destruct (H2' e He) as (o & Ho & Er). pose proof (tls_route_spec hl hosts ns sp gws e o Eh Bh Er G (Br RTls e He)) as X.
      destruct o as [r|]; [|right; auto]. left. exists r. split; [|exact X]. unfold routes_of. rewrite !in_app_iff. right. left. apply in_flat_map. exists (Some r). split; [exact Ho|left; reflexivity].
    + rewrite <- I3 in H3'. destruct (H3' e He) as (r & Hr & Er). left. exists r. split; [unfold routes_of; rewrite !in_app_iff; right; right; exact Hr|]. apply tcp_route_spec; [exact Er|exact G|exact (Br RTcp e He)].
Qed.
Definition vs_key (y : yaml) (k : string) : Prop := exists name ns sp, vs_doc y name ns sp /\ k = slash_name ns name.
Lemma services_read : forall docs l, fold_left (fun acc y => bind acc (fun l => parse_virtual_service std_dom cl ks svcs dfa rematch l y)) docs (Some []) = Some l ->
  NoDup (map vs_name l) /\ (forall vs, In vs l -> exists y, chosen vs_key docs y (vs_name vs) /\ vs_of y vs) /\
  forall y k, chosen vs_key docs y k -> exists vs, In vs l /\ vs_name vs = k /\ vs_of y vs.
Proof using CO C0 RM Hc HS SF.
  intros docs l E. refine (read_named vs_name (parse_virtual_service std_dom cl ks svcs dfa rematch) vs_key vs_of _ _ _ docs l E).
  - intros y vs (name & ns & sp & D & En & _). exists name, ns, sp. auto.
  - intros y k k' (n1 & s1 & p1 & D1 & ->) (n2 & s2 & p2 & D2 & ->). destruct (istio_doc_fn _ _ _ _ _ _ _ _ D1 D2) as (-> & -> & _). reflexivity.
  - intros l0 y l' Es. destruct (parse_vs_spec l0 y l' Es) as [[-> N]|H]; [left|right; exact H]. split; auto. intros k (n1 & s1 & p1 & D1 & _). exact (N _ _ _ D1).
Qed.
End Routes.
