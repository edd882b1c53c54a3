(** * Facts about the egress hosts of Sidecars and the connections made of them. *)
From Coq Require Import ZArith List Bool Arith Lia String Ascii Permutation.
From Verif Require Import IntervalModel IntervalFacts HyperModel HyperFacts HyperOps HyperDims HyperTop HyperInst
                          PropHyperCube ConnModel ConnFacts TextModel TextFacts PortProtoModel PortProtoFacts PeerModel PeerFacts PeerSetFacts
                          PolicyModel PolicyLaws PolicyFacts LayerFacts OrderFacts ConnAlg StdDims PropLayers YamlModel ClusterModel K8sParserModel SelectorFacts
                          ConnDict NamedExcl PropSelectors K8sParserFacts PropK8sParser CalicoSelectorModel CalicoSelectorFacts CalicoSelectorGram
                          CalicoSelectorSets CalicoParserModel CalicoParserFacts CalicoRuleFacts PropCalicoParser
                          IstioValueModel PropIstioValues IstioParserModel IstioParserFacts IstioRuleFacts PropIstioParser ServiceModel SidecarModel SidecarFacts.
Import ListNotations.
Local Open Scope string_scope.
Local Open Scope list_scope.
Local Open Scope nat_scope.
Local Opaque min_pod_index max_pod_index min_ipv6_index max_ipv6_index max_ipv4_index v4max v6min v6max.

(** ** Text *)
Lemma split_app : forall c s t, split c (s ++ String c t)%string = split c s ++ split c t.
Proof.
  intros c s t. induction s as [|a s IH]; cbn.
  - rewrite Ascii.eqb_refl. reflexivity.
  - rewrite IH. destruct (Ascii.eqb a c); [reflexivity|]. pose proof (split_ne c s) as N. destruct (split c s); [congruence|]. reflexivity.
Qed.
Lemma join_split : forall c s, join (String c "") (split c s) = s.
Proof.
  intros c s. induction s as [|a s IH]; [reflexivity|]. cbn [split]. pose proof (split_ne c s) as N. destruct (Ascii.eqb_spec a c) as [Q|Q].
  - subst a. destruct (split c s) as [|x r]; [congruence|]. change (join (String c EmptyString) (EmptyString :: x :: r)) with (String c (join (String c EmptyString) (x :: r))). rewrite IH. reflexivity.
  - destruct (split c s) as [|x r]; [congruence|]. destruct r as [|y r]; cbn [join] in *; rewrite <- IH; reflexivity.
Qed.
Lemma split_parts : forall c s x, In x (split c s) -> has_char c x = false.
Proof.
  intros c s. induction s as [|a s IH]; cbn [split]; intros x H; [destruct H as [<-|[]]; reflexivity|].
  destruct (Ascii.eqb_spec a c) as [Q|Q].
  - destruct H as [<-|H]; auto.
  - pose proof (split_ne c s) as N. destruct (split c s) as [|y r]; [congruence|]. destruct H as [<-|H]; [|apply IH; cbn; auto].
    cbn. rewrite (IH y (or_introl eq_refl)). destruct (Ascii.eqb_spec a c); [congruence|reflexivity].
Qed.
Lemma host_parts_spec : forall h a b, host_parts h = Some (a, b) ->
  h = (a ++ "/" ++ b)%string /\ a <> "" /\ b <> "" /\ forall a' b', h = (a' ++ "/" ++ b')%string -> a' = a /\ b' = b.
Proof.
  intros h a b E. unfold host_parts in E. destruct (split "/" h) as [|x [|y [|z t]]] eqn:Es; try discriminate.
  destruct (String.eqb_spec x "") as [Q|Q]; [discriminate|]. destruct (String.eqb_spec y "") as [Q'|Q']; [discriminate|]. cbn in E. injection E as -> ->.
  split; [rewrite <- (join_split "/" h), Es; reflexivity|]. split; auto. split; auto. intros a' b' Eh.
  assert (X : split "/" h = split "/" a' ++ split "/" b') by (rewrite Eh; apply split_app). rewrite Es in X.
  pose proof (split_ne "/" a') as N1. pose proof (split_ne "/" b') as N2. pose proof (join_split "/" a') as J1. pose proof (join_split "/" b') as J2.
  destruct (split "/" a') as [|u [|u2 ru]]; [congruence| |].
  - destruct (split "/" b') as [|v [|v2 rv]]; [congruence| |discriminate]. cbn in *. injection X as -> ->. auto.
  - destruct (split "/" b') as [|v rv]; [congruence|]. apply (f_equal (@List.length string)) in X. cbn in X. rewrite app_length in X. cbn in X. lia.
Qed.
Lemma chars_app : forall s t, chars (s ++ t)%string = chars s ++ chars t.
Proof. induction s as [|c s IH]; intros t; cbn; [reflexivity|]. rewrite IH. reflexivity. Qed.
Lemma last_app_ne : forall {X} (l r : list X) d d', r <> [] -> last (l ++ r) d = last r d'.
Proof.
  intros X l r d d' N. induction l as [|x l IH]; cbn [app].
  - clear - N. induction r as [|y r IH]; [congruence|]. destruct r; [reflexivity|]. cbn [last] in *. apply IH. discriminate.
  - cbn [last]. destruct (l ++ r) eqn:E; [apply app_eq_nil in E as [_ E]; congruence|]. exact IH.
Qed.
Definition proper_name (d : string) : Prop := forall l, In l (split "." d) -> fqdn_label l = true.
Lemma proper_join : forall ls, ls <> [] -> (forall l, In l ls -> fqdn_label l = true) -> bracketed alnum name_char (join "." ls) = true.
Proof.
  assert (NC : forall c, alnum c || Ascii.eqb c "-" = true -> name_char c = true).
  { intros c H. unfold name_char. apply orb_true_iff in H as [H|H]; rewrite H; [reflexivity|]. rewrite orb_true_r. reflexivity. }
  induction ls as [|x ls IH]; intros N H; [congruence|]. pose proof (H x (or_introl eq_refl)) as Hx. unfold fqdn_label, bracketed in Hx.
  destruct (chars x) as [|c cs] eqn:Ex; [discriminate|]. apply andb_true_iff in Hx as [Hx Hx3]. apply andb_true_iff in Hx as [Hx1 Hx2].
  assert (Hn : forallb name_char (c :: cs) = true) by (apply forallb_forall; intros d Hd; apply NC; apply (proj1 (forallb_forall _ _) Hx3 d Hd)).
  destruct ls as [|y ls].
  - cbn [join]. unfold bracketed. rewrite Ex, Hx1, Hx2, Hn. reflexivity.
  - specialize (IH ltac:(discriminate) (fun l Hl => H l (or_intror Hl))). unfold bracketed in *.
    change (join "." (x :: y :: ls)) with (x ++ String "." (join "." (y :: ls)))%string. rewrite chars_app, Ex. cbn [chars app].
    destruct (chars (join "." (y :: ls))) as [|d ds] eqn:Ey; [discriminate|]. apply andb_true_iff in IH as [IH I3]. apply andb_true_iff in IH as [I1 I2].
    rewrite Hx1. cbn [andb]. rewrite app_comm_cons, (last_app_ne (c :: cs) _ c d) by discriminate. replace (last ("."%char :: d :: ds) d) with (last (d :: ds) d) by reflexivity. rewrite I2. cbn [andb].
    rewrite forallb_app, Hn. cbn [forallb]. exact I3.
Qed.
Lemma substring_app : forall p s, substring 0 (String.length p) (p ++ s)%string = p.
Proof. induction p as [|c p IH]; intros s; cbn; [destruct s; reflexivity|]. rewrite IH. reflexivity. Qed.
Lemma prefix_char : forall c b, prefix (String c "") b = true <-> exists t, b = String c t.
Proof.
  intros c [|a b]; cbn; [split; [discriminate|intros (t & E); discriminate]|]. destruct (ascii_dec c a) as [Q|Q].
  - subst a. split; [intros _; exists b; reflexivity|]. destruct b; reflexivity.
  - split; [discriminate|]. intros (t & E). injection E as -> _. congruence.
Qed.

(** ** What the hosts mean (independent of the parser) *)
(** The full name of a service. *)
Definition fqdn (s : service) : string := (sv_name s ++ "." ++ sv_ns s ++ ".svc.cluster.local")%string.
(** A name against the part of the host after the slash: all names, this name, or the names that end in a dot and a suffix. *)
Definition name_part (b f : string) : Prop := b = "*" \/ b = f \/ exists suf p, b = ("*." ++ suf)%string /\ f = (p ++ "." ++ suf)%string.
(** The services a Sidecar of namespace [own] means by the part before the slash. *)
Definition in_scope (own a : string) (s : service) : Prop :=
  a = "*" \/ a = "." /\ (own = "istio-config" \/ sv_ns s = own) \/ a = sv_ns s /\ ~ In a ["*"; "."; "~"].
Section Hosts.
Context (cl : cluster) (svcs : list service).
(** [x] can reach [t] by the host [a]/[b]: a pod of such a service (for the host . in the root namespace: a service in the
    namespace of [x]), or an external name. *)
Definition reaches (own a b : string) (x t : point) : Prop :=
  (exists s i, In s svcs /\ t = PN 0 i /\ In (Named 0 i) (sv_pods s) /\ in_scope own a s /\ name_part b (fqdn s) /\
     (a = "." -> own = "istio-config" -> exists j, x = PN 0 j /\ cl_ns cl (Named 0 j) = Some (sv_ns s))) \/
  (exists d, t = PN 2 d /\ In (Named 2 d) (cl_peers cl) /\ a <> "~" /\ name_part b d).
(** Hosts the parser reads right: see the refutations for others. *)
Definition host_benign (own a b : string) : Prop :=
  b = "*" \/
  (exists s0 n, b = (s0 ++ "." ++ n ++ ".svc.cluster.local")%string /\ has_char "." s0 = false /\ s0 <> "*" /\
     (forall s, In s svcs -> in_scope own a s -> sv_name s = s0 -> sv_ns s = n) /\ ~ In (Named 2 b) (cl_peers cl)) \/
  (prefix "*." b = true /\ contains_str "svc.cluster.local" b = true /\
     (forall s, In s svcs -> in_scope own a s -> name_part b (fqdn s)) /\ forall d, In (Named 2 d) (cl_peers cl) -> name_part b d) \/
  (contains_str "svc.cluster.local" b = false /\ (forall s, In s svcs -> in_scope own a s -> ~ name_part b (fqdn s)) /\
     forall d, In (Named 2 d) (cl_peers cl) -> name_part b d -> b = d \/ proper_name d).
Definition services_ok : Prop := forall s, In s svcs ->
  has_char "." (sv_name s) = false /\ forall q, In q (sv_pods s) -> In q (cl_peers cl) /\ cl_ns cl q = Some (sv_ns s).

Context (Hc : cluster_ok cl) (Hk : kinds_ok cl) (Hs : services_ok).
Definition known (s : peerset) : Prop := forall q, In q s -> In q (cl_peers cl).
Lemma known_plain : forall s, known s -> plain s.
Proof using Hc. intros s H q Hq. apply (cluster_plain cl Hc). auto. Qed.
Lemma contains_app : forall w p s, contains_str w (p ++ w ++ s)%string = true.
Proof using.
  intros w p s. induction p as [|c p IH].
  - change ("" ++ w ++ s)%string with (w ++ s)%string. pose proof (prefix_app w s) as X. destruct (w ++ s)%string; cbn [contains_str]; rewrite X; reflexivity.
  - cbn [append contains_str]. rewrite IH. apply orb_true_r.
Qed.
Lemma dns_named : forall q, In q (cl_peers cl) -> is_dns q = true -> exists d, q = Named 2 d.
Proof using Hc. intros q H D. destruct (Hc q H) as (k & n & -> & _). exists n. unfold is_dns in D. destruct k as [|[|[|k]]]; try discriminate. reflexivity. Qed.
Lemma svc_pod : forall s q, In s svcs -> In q (sv_pods s) -> exists i, q = Named 0 i.
Proof using Hc Hk Hs. intros s q H Hq. destruct (proj2 (Hs s H) q Hq) as [H1 H2]. destruct (Hc q H1) as (k & n & -> & E). exists n. rewrite (proj1 E); congruence. Qed.
Lemma svc_fold : forall (f : service -> bool) l acc q,
  In q (fold_left (fun r s => if f s then ps_union r (sv_pods s) else r) l acc) <-> In q acc \/ exists s, In s l /\ f s = true /\ In q (sv_pods s).
Proof using.
  intros f. induction l as [|s l IH]; intros acc q; cbn [fold_left].
  - split; auto. intros [H|(s & [] & _)]; auto.
  - rewrite IH. destruct (f s) eqn:E.
    + rewrite ps_union_In. split.
      * intros [[H|H]|(s' & H1 & H2)]; [auto|right; exists s; cbn; auto|right; exists s'; cbn; tauto].
      * intros [H|(s' & [<-|H1] & H2 & H3)]; [auto|auto|right; exists s'; auto].
    + split; intros [H|(s' & H1 & H2 & H3)]; auto; right; exists s'; cbn in *; [tauto|]. destruct H1 as [<-|H1]; [congruence|auto].
Qed.
Lemma dns_fold : forall l acc q, In q (fold_left (fun r p => if is_dns p then padd p r else r) l acc) <-> In q acc \/ In q l /\ is_dns q = true.
Proof using.
  induction l as [|p l IH]; intros acc q; cbn [fold_left]; [cbn; tauto|]. rewrite IH. destruct (is_dns p) eqn:E.
  - rewrite padd_In. cbn [In]. split; [intros [[H|H]|H]; [subst; auto|auto|tauto]|]. intros [H|[[H|H] H2]]; auto.
  - cbn [In]. split; [tauto|]. intros [H|[[<-|H] H2]]; [auto|congruence|auto].
Qed.
Lemma service_peers_In : forall f q, In q (service_peers cl svcs f) <-> (exists s, In s svcs /\ f s = true /\ In q (sv_pods s)) \/ In q (cl_peers cl) /\ is_dns q = true.
Proof using. intros f q. unfold service_peers. rewrite dns_fold, svc_fold. cbn. tauto. Qed.
Lemma pods_of_service_In : forall n q, In q (pods_of_service svcs n) <-> exists s, In s svcs /\ sv_name s = n /\ In q (sv_pods s).
Proof using.
  intros n q. unfold pods_of_service. rewrite svc_fold. cbn [In]. split.
  - intros [[]|(s & H1 & H2 & H3)]. apply String.eqb_eq in H2. exists s. auto.
  - intros (s & H1 & H2 & H3). right. exists s. rewrite H2, String.eqb_refl. auto.
Qed.
(** The peers of a host, before the name is looked at. *)
Lemma host_namespace_spec : forall own a ps sp, host_namespace cl svcs own a = Some (ps, sp) ->
  known ps /\ (sp = true <-> a = "." /\ own = "istio-config") /\
  forall q, In q ps <-> (exists s, In s svcs /\ in_scope own a s /\ In q (sv_pods s)) \/ In q (cl_peers cl) /\ is_dns q = true /\ a <> "~".
Proof using Hs.
  assert (KN : forall f, known (service_peers cl svcs f)).
  { intros f q H. apply service_peers_In in H as [(s & H1 & _ & H2)|[H _]]; auto. apply (Hs s H1). exact H2. }
  intros own a ps sp E. unfold host_namespace, root_namespace in E. destruct (negb (host_ns_ok a)); [discriminate|].
  destruct (String.eqb_spec a "*") as [Q1|Q1].
  { injection E as <- <-. split; auto. split; [split; [discriminate|intros [H _]; congruence]|]. intros q. rewrite service_peers_In. subst a. unfold in_scope. split.
    - intros [(s & H1 & H2 & H3)|[H1 H2]]; [left; exists s; auto|right; repeat split; auto; discriminate].
    - intros [(s & H1 & H2 & H3)|(H1 & H2 & H3)]; [left; exists s; auto|right; auto]. }
  destruct (String.eqb_spec a ".") as [Q2|Q2].
  { subst a. destruct (String.eqb_spec own "istio-config") as [Q3|Q3]; injection E as <- <-; (split; [auto|]).
    - split; [tauto|]. intros q. rewrite service_peers_In. unfold in_scope. split.
      + intros [(s & H1 & H2 & H3)|[H1 H2]]; [left; exists s; auto 10|right; repeat split; auto; discriminate].
      + intros [(s & H1 & H2 & H3)|(H1 & H2 & H3)]; [left; exists s; auto|right; auto].
    - split; [split; [discriminate|intros [_ H]; congruence]|]. intros q. rewrite service_peers_In. unfold in_scope. split.
      + intros [(s & H1 & H2 & H3)|[H1 H2]]; [|right; repeat split; auto; discriminate]. apply String.eqb_eq in H2. left. exists s. auto 10.
      + intros [(s & H1 & H2 & H3)|(H1 & H2 & H3)]; [|right; auto]. left. exists s. split; auto. split; auto. apply String.eqb_eq.
        destruct H2 as [H2|[[_ [H2|H2]]|[_ H2]]]; [congruence|congruence|auto|]. destruct H2. cbn. auto. }
  destruct (String.eqb_spec a "~") as [Q3|Q3].
  { injection E as <- <-. split; [intros q []|]. split; [split; [discriminate|intros [H _]; congruence]|]. subst a. intros q. split; [intros []|].
    intros [(s & H1 & H2 & H3)|(H1 & H2 & H3)]; [|congruence]. destruct H2 as [H2|[[H2 _]|[_ H2]]]; try discriminate. destruct H2. cbn. auto. }
  injection E as <- <-. split; auto. split; [split; [discriminate|intros [H _]; congruence]|]. intros q. rewrite service_peers_In. unfold in_scope. split.
  - intros [(s & H1 & H2 & H3)|[H1 H2]]; [|right; auto]. apply String.eqb_eq in H2. left. exists s. split; auto. split; auto. right. right. split; auto.
    intros [H|[H|[H|[]]]]; congruence.
  - intros [(s & H1 & H2 & H3)|(H1 & H2 & H3)]; [|right; auto]. left. exists s. split; auto. split; auto. apply String.eqb_eq. destruct H2 as [H2|[[H2 _]|[H2 _]]]; congruence.
Qed.
(** A DNS entry against the name of a host. *)
Lemma fullmatch_name : forall b d, dns_name_ok b = true -> b <> "*" -> String.eqb d b || host_fullmatch b d = true -> name_part b d.
Proof using.
  intros b d Ok N H. unfold name_part. destruct (String.eqb_spec d b) as [Q|Q]; [auto|]. cbn in H. unfold host_fullmatch in H.
  destruct b as [|c rest]; [apply String.eqb_eq in H; auto|]. destruct (Ascii.eqb_spec c "*") as [Qc|Qc]; [|apply String.eqb_eq in H; auto].
  subst c. apply andb_true_iff in H as [H _]. apply suffix_spec in H as (p & ->).
  unfold dns_name_ok in Ok. destruct (String.eqb_spec (String "*" rest) "*") as [Q2|Q2]; [congruence|]. cbn [has_char] in Ok. rewrite Ascii.eqb_refl in Ok. cbn [orb] in Ok.
  destruct rest as [|c2 rest]; [congruence|]. rewrite !andb_true_iff in Ok. destruct Ok as [[[_ Ok] _] _]. apply Ascii.eqb_eq in Ok. subst c2.
  right. right. exists rest, p. split; reflexivity.
Qed.
Lemma name_fullmatch : forall b d, b <> "*" -> name_part b d -> b = d \/ proper_name d -> String.eqb d b || host_fullmatch b d = true.
Proof using.
  intros b d N H P. destruct (String.eqb_spec d b) as [Q|Q]; [reflexivity|]. cbn. destruct H as [H|[H|(suf & p & -> & ->)]]; [congruence|congruence|].
  destruct P as [P|P]; [congruence|]. unfold host_fullmatch. change ("*." ++ suf)%string with (String "*" (String "." suf)). cbn [Ascii.eqb Bool.eqb].
  apply andb_true_iff. split; [apply suffix_spec; exists p; reflexivity|].
  change ("." ++ suf)%string with (String "." suf). rewrite length_app_s, Nat.add_sub, substring_app. unfold dns_pattern.
  destruct (String.eqb_spec p "") as [E|E]; [reflexivity|]. cbn. rewrite <- (join_split "." p). apply proper_join; [apply split_ne|].
  intros l Hl. apply P. change ("." ++ suf)%string with (String "." suf). rewrite split_app. apply in_or_app. auto.
Qed.
Lemma dns_matching_In : forall b q, In q (dns_matching cl b) <-> exists d, q = Named 2 d /\ In q (cl_peers cl) /\ String.eqb d b || host_fullmatch b d = true.
Proof using Hc.
  intros b q. unfold dns_matching. rewrite select_In. split.
  - intros [H1 H2]. destruct (Hc q H1) as (k & n & -> & _). apply andb_true_iff in H2 as [H2 H3]. destruct (dns_named _ H1 H2) as [d E]. injection E as -> ->. exists d. auto.
  - intros (d & -> & H1 & H2). auto.
Qed.
Lemma fqdn_inj : forall s s0 n, has_char "." (sv_name s) = false -> has_char "." s0 = false ->
  fqdn s = (s0 ++ "." ++ n ++ ".svc.cluster.local")%string -> sv_name s = s0 /\ sv_ns s = n.
Proof using.
  intros s s0 n H1 H2 E. unfold fqdn in E.
  assert (X : forall a u, (a ++ "." ++ u)%string = (a ++ String "." u)%string) by reflexivity. rewrite !X in E. clear X.
  assert (Y : sv_name s = s0 /\ (sv_ns s ++ ".svc.cluster.local")%string = (n ++ ".svc.cluster.local")%string).
  { revert H1 H2 E. generalize (sv_ns s ++ ".svc.cluster.local")%string. generalize (n ++ ".svc.cluster.local")%string. intros u v. generalize (sv_name s). clear.
    intros a. revert s0. induction a as [|c a IH]; intros [|c' s0] H1 H2 E; cbn in *.
    - injection E as ->. auto.
    - injection E as <- _. discriminate.
    - injection E as -> _. discriminate.
    - injection E as -> E. apply orb_false_iff in H1 as [_ H1]. apply orb_false_iff in H2 as [_ H2]. destruct (IH s0 H1 H2 E) as [-> ->]. auto. }
  destruct Y as [Y1 Y2]. split; auto. clear - Y2. revert n Y2. generalize (sv_ns s). induction s0 as [|c a IH]; intros [|c' n] E; auto.
  - apply (f_equal String.length) in E. rewrite !length_app_s in E. cbn in E. lia.
  - apply (f_equal String.length) in E. rewrite !length_app_s in E. cbn in E. lia.
  - cbn in E. injection E as -> E. f_equal. auto.
Qed.
Definition host_peers (own a b : string) (q : peer) : Prop :=
  (exists s, In s svcs /\ in_scope own a s /\ In q (sv_pods s) /\ name_part b (fqdn s)) \/
  (exists d, q = Named 2 d /\ In q (cl_peers cl) /\ a <> "~" /\ name_part b d).
Lemma star_form : forall b, prefix "*." b = true -> exists suf, b = ("*." ++ suf)%string.
Proof using. intros b H. destruct (prefix_split _ _ H) as (r & ->). exists r. reflexivity. Qed.
Lemma dns_part_spec : forall own a b ps sp r, host_namespace cl svcs own a = Some (ps, sp) -> dns_name_ok b = true ->
  (if pbool ps then host_dns_name cl svcs b ps else Some ps) = Some r ->
  known r /\ (host_benign own a b -> forall q, In q r <-> host_peers own a b q).
Proof using Hc Hk Hs.
  intros own a b ps sp r En Ok E. destruct (host_namespace_spec own a ps sp En) as (Kp & _ & M).
  assert (E' : host_dns_name cl svcs b ps = Some r).
  { destruct ps as [|p ps]; [|exact E]. cbn in E. injection E as <-. unfold host_dns_name. destruct (String.eqb b "*"); auto. destruct (contains_str _ b).
    - destruct (prefix "*." b); auto. match goal with |- ps_inter [] ?t = _ => assert (Pt : plain t) end.
      { intros q Hq. apply pods_of_service_In in Hq as (s & H1 & _ & H2). destruct (svc_pod s q H1 H2) as [i ->]. reflexivity. }
      destruct (plain_inter [] _ (fun q H => match H with end) Pt) as (r & Er & _ & Mr). rewrite Er. f_equal. destruct r as [|x r]; auto. destruct (proj1 (Mr x) (or_introl eq_refl)) as [[] _].
    - match goal with |- ps_inter [] ?t = _ => assert (Pt : plain t) end.
      { intros q Hq. apply dns_matching_In in Hq as (d & -> & _). reflexivity. }
      destruct (plain_inter [] _ (fun q H => match H with end) Pt) as (r & Er & _ & Mr). rewrite Er. f_equal. destruct r as [|x r]; auto. destruct (proj1 (Mr x) (or_introl eq_refl)) as [[] _]. }
  clear E. unfold host_dns_name in E'. unfold host_peers. destruct (String.eqb_spec b "*") as [Qb|Qb].
  { injection E' as <-. split; auto. intros _ q. rewrite M. subst b. unfold name_part. split.
    - intros [(s & H1 & H2 & H3)|(H1 & H2 & H3)]; [left; exists s; auto|]. destruct (dns_named q H1 H2) as [d ->]. right. exists d. auto.
    - intros [(s & H1 & H2 & H3 & _)|(d & -> & H1 & H2 & _)]; [left; exists s; auto|]. right. auto. }
  destruct (contains_str "svc.cluster.local" b) eqn:Ec.
  - destruct (prefix "*." b) eqn:Ep.
    + injection E' as <-. split; auto. intros [B|[(s0 & n & B1 & B2 & B3 & _)|[(_ & _ & B1 & B2)|(B & _)]]] q; [congruence| | |congruence].
      { exfalso. destruct (star_form b Ep) as (suf & Es). rewrite B1 in Es. apply B3. clear - Es B2. destruct s0 as [|c s0]; cbn in Es; [discriminate|]. injection Es as -> Es.
        destruct s0 as [|c s0]; [reflexivity|]. cbn in Es. injection Es as -> _. discriminate. }
      rewrite M. split.
      * intros [(s & H1 & H2 & H3)|(H1 & H2 & H3)]; [left; exists s; auto 6|]. destruct (dns_named q H1 H2) as [d ->]. right. exists d. auto.
      * intros [(s & H1 & H2 & H3 & _)|(d & -> & H1 & H2 & _)]; [left; exists s; auto|]. right. auto.
    + match type of E' with ps_inter _ ?t = _ => assert (Pt : plain t) end.
      { intros q Hq. apply pods_of_service_In in Hq as (s & H1 & _ & H2). destruct (svc_pod s q H1 H2) as [i ->]. reflexivity. }
      destruct (plain_inter _ _ (known_plain ps Kp) Pt) as (r' & Er & _ & Mr). rewrite E' in Er. injection Er as <-. split; [intros q H; apply Mr in H as [H _]; auto|].
      intros [B|[(s0 & n & B1 & B2 & B3 & B4 & B5)|[(B & _)|(B & _)]]] q; [congruence| |congruence|congruence].
      assert (Hd : match split "." b with s :: _ => s | [] => "" end = s0).
      { rewrite B1. change (s0 ++ "." ++ n ++ ".svc.cluster.local")%string with (s0 ++ String "." (n ++ ".svc.cluster.local"))%string. rewrite split_app_char; auto. }
      rewrite Hd in Mr. rewrite Mr, M, pods_of_service_In. split.
      * intros [H (s & H1 & H2 & H3)]. destruct H as [(s' & G1 & G2 & G3)|(G1 & G2 & G3)].
        -- left. assert (Es : sv_ns s = sv_ns s'). { destruct (proj2 (Hs s H1) q H3) as [_ X]. destruct (proj2 (Hs s' G1) q G3) as [_ X']. congruence. }
           assert (Sc : in_scope own a s). { unfold in_scope in *. rewrite Es. exact G2. }
           exists s. split; auto. split; auto. split; auto. right. left. rewrite B1. unfold fqdn. rewrite H2, (B4 s H1 Sc H2). reflexivity.
        -- destruct (svc_pod s q H1 H3) as [i ->]. discriminate.
      * intros [(s & H1 & H2 & H3 & H4)|(d & -> & H1 & H2 & H3)].
        -- split; [left; exists s; auto|]. exists s. split; auto. split; auto. destruct H4 as [H4|[H4|(suf & p & H4 & _)]]; [congruence| |].
           ++ rewrite B1 in H4. apply (fqdn_inj s s0 n (proj1 (Hs s H1)) B2). congruence.
           ++ exfalso. rewrite H4 in Ep. rewrite prefix_app in Ep. discriminate.
        -- exfalso. destruct H3 as [H3|[H3|(suf & p & H3 & _)]]; [congruence|subst d; auto|]. rewrite H3, prefix_app in Ep. discriminate.
  - match type of E' with ps_inter _ ?t = _ => assert (Pt : plain t) end.
    { intros q Hq. apply dns_matching_In in Hq as (d & -> & _). reflexivity. }
    destruct (plain_inter _ _ (known_plain ps Kp) Pt) as (r' & Er & _ & Mr). rewrite E' in Er. injection Er as <-. split; [intros q H; apply Mr in H as [H _]; auto|].
    intros [B|[(s0 & n & B1 & _)|[(_ & B & _)|(_ & B1 & B2)]]] q; [congruence| |congruence|].
    { exfalso. rewrite B1 in Ec. assert (X : (s0 ++ "." ++ n ++ ".svc.cluster.local")%string = ((s0 ++ "." ++ n ++ ".") ++ "svc.cluster.local" ++ "")%string).
      { rewrite !app_assoc_s. reflexivity. } rewrite X, contains_app in Ec. discriminate. }
    rewrite Mr, M, dns_matching_In. split.
    + intros [H (d & -> & H1 & H2)]. destruct H as [(s & G1 & G2 & G3)|(_ & _ & G3)].
      * destruct (svc_pod s _ G1 G3) as [i Ei]. discriminate.
      * right. exists d. split; auto. split; auto. split; auto. apply fullmatch_name; auto.
    + intros [(s & H1 & H2 & H3 & H4)|(d & -> & H1 & H2 & H3)]; [destruct (B1 s H1 H2 H4)|]. split; [right; auto|]. exists d. split; auto. split; auto. apply name_fullmatch; auto.
Qed.

(** ** The hosts of one egress entry *)
Definition special (own a : string) : Prop := a = "." /\ own = "istio-config".
Lemma special_dec : forall own a, special own a \/ ~ special own a.
Proof using. intros own a. unfold special. destruct (String.eqb_spec a "."), (String.eqb_spec own "istio-config"); tauto. Qed.
Lemma egress_host_spec : forall own acc y acc', known (fst acc) -> known (snd acc) -> egress_host cl svcs own acc y = Some acc' ->
  known (fst acc') /\ known (snd acc') /\ exists h a b, y = YStr h /\ h = (a ++ "/" ++ b)%string /\ (forall a' b', h = (a' ++ "/" ++ b')%string -> a' = a /\ b' = b) /\
    (host_benign own a b -> forall q,
      (In q (fst acc') <-> In q (fst acc) \/ ~ special own a /\ host_peers own a b q) /\
      (In q (snd acc') <-> In q (snd acc) \/ special own a /\ host_peers own a b q)).
Proof using Hc Hk Hs.
  intros own acc y acc' K1 K2 E. unfold egress_host in E. destruct y as [| | | |h| |]; try discriminate.
  destruct (host_parts h) as [[a b]|] eqn:Eh; [|discriminate]. cbn [bind fst snd] in E. destruct (host_parts_spec h a b Eh) as (H1 & _ & _ & H2).
  destruct (host_namespace cl svcs own a) as [[ps sp]|] eqn:En; [|discriminate]. cbn [bind fst snd] in E.
  destruct (dns_name_ok b) eqn:Ed; [|discriminate]. cbn [negb] in E.
  match type of E with bind ?e _ = _ => destruct e as [r|] eqn:Er; [|discriminate] end. cbn [bind] in E. injection E as <-.
  destruct (dns_part_spec own a b ps sp r En Ed Er) as [Kr Mr]. destruct (host_namespace_spec own a ps sp En) as (_ & Sp & _).
  assert (KU : forall s, known s -> known (ps_union s r)) by (intros s Ks q H; apply ps_union_In in H as [H|H]; auto).
  assert (KK : known (fst (if sp then (fst acc, ps_union (snd acc) r) else (ps_union (fst acc) r, snd acc))) /\
               known (snd (if sp then (fst acc, ps_union (snd acc) r) else (ps_union (fst acc) r, snd acc)))) by (destruct sp; cbn [fst snd]; auto).
  split; [apply KK|]. split; [apply KK|]. exists h, a, b. split; auto. split; auto. split; auto. intros B q. specialize (Mr B q). fold (special own a) in Sp.
  destruct sp; cbn [fst snd].
  - assert (S : special own a) by (apply Sp; auto). rewrite ps_union_In, Mr. clear - S. tauto.
  - assert (S : ~ special own a) by (intros H; apply Sp in H; discriminate). rewrite ps_union_In, Mr. clear - S. tauto.
Qed.
(** The hosts of an entry. *)
Definition host_in (e : yaml) (a b : string) : Prop :=
  exists m hs h, e = YMap m /\ yget m "hosts" = YList hs /\ In (YStr h) hs /\ h = (a ++ "/" ++ b)%string.
Lemma egress_fold : forall own hs acc acc', known (fst acc) -> known (snd acc) ->
  fold_left (fun acc y => bind acc (fun st => egress_host cl svcs own st y)) hs (Some acc) = Some acc' ->
  known (fst acc') /\ known (snd acc') /\
  ((forall h a b, In (YStr h) hs -> h = (a ++ "/" ++ b)%string -> host_benign own a b) -> forall q,
     (In q (fst acc') <-> In q (fst acc) \/ exists h a b, In (YStr h) hs /\ h = (a ++ "/" ++ b)%string /\ ~ special own a /\ host_peers own a b q) /\
     (In q (snd acc') <-> In q (snd acc) \/ exists h a b, In (YStr h) hs /\ h = (a ++ "/" ++ b)%string /\ special own a /\ host_peers own a b q)).
Proof using Hc Hk Hs.
  assert (NN : forall own hs, fold_left (fun acc y => bind acc (fun st => egress_host cl svcs own st y)) hs None = None) by (intros own hs; induction hs; cbn; auto).
  intros own. induction hs as [|y hs IH]; intros acc acc' K1 K2 E.
  - cbn in E. injection E as <-. split; auto. split; auto. intros _ q. split; (split; [auto|]); intros [H|(h & a & b & [] & _)]; auto.
  - cbn [fold_left bind] in E. destruct (egress_host cl svcs own acc y) as [acc1|] eqn:E1; [|rewrite NN in E; discriminate].
    destruct (egress_host_spec own acc y acc1 K1 K2 E1) as (K3 & K4 & h & a & b & -> & Eh & U & M). destruct (IH acc1 acc' K3 K4 E) as (K5 & K6 & M').
    split; auto. split; auto. intros B q. specialize (M (B h a b (or_introl eq_refl) Eh) q). specialize (M' (fun h' a' b' H => B h' a' b' (or_intror H)) q).
    destruct M as [M1 M2], M' as [M3 M4]. rewrite M3, M4, M1, M2. split; split.
    + intros [[H|[H1 H2]]|(h' & a' & b' & H1 & H2 & H3)]; [auto|right; exists h, a, b; cbn; auto|right; exists h', a', b'; cbn; auto].
    + intros [H|(h' & a' & b' & [H1|H1] & H2 & H3 & H4)]; [auto| |right; exists h', a', b'; auto]. injection H1 as <-. destruct (U a' b' H2) as [-> ->]. auto.
    + intros [[H|[H1 H2]]|(h' & a' & b' & H1 & H2 & H3)]; [auto|right; exists h, a, b; cbn; auto|right; exists h', a', b'; cbn; auto].
    + intros [H|(h' & a' & b' & [H1|H1] & H2 & H3 & H4)]; [auto| |right; exists h', a', b'; auto]. injection H1 as <-. destruct (U a' b' H2) as [-> ->]. auto.
Qed.
Definition entry_benign (own : string) (e : yaml) : Prop := forall a b, host_in e a b -> host_benign own a b.
Lemma egress_rule_spec : forall own e r, egress_rule cl svcs own e = Some r ->
  known (fst r) /\ known (snd r) /\ (entry_benign own e -> forall q,
    (In q (fst r) <-> exists a b, host_in e a b /\ ~ special own a /\ host_peers own a b q) /\
    (In q (snd r) <-> exists a b, host_in e a b /\ special own a /\ host_peers own a b q)).
Proof using Hc Hk Hs.
  intros own e r E. unfold egress_rule in E. destruct (check_fields e _) as [m|] eqn:Em; [|discriminate]. cbn [bind] in E. apply check_fields_map in Em as [-> _].
  destruct (yget m "hosts") as [| | | | |[|h0 t]|] eqn:Eh; try discriminate.
  destruct (egress_fold own (h0 :: t) ([], []) r (fun q H => match H with end) (fun q H => match H with end) E) as (K1 & K2 & M).
  split; auto. split; auto. intros B q.
  assert (HI : forall a b, host_in (YMap m) a b <-> exists h, In (YStr h) (h0 :: t) /\ h = (a ++ "/" ++ b)%string).
  { intros a b. split.
    - intros (m' & hs & h & Em & Ehs & H1 & H2). injection Em as <-. rewrite Eh in Ehs. injection Ehs as <-. exists h. auto.
    - intros (h & H1 & H2). exists m, (h0 :: t), h. auto. }
  assert (B' : forall h a b, In (YStr h) (h0 :: t) -> h = (a ++ "/" ++ b)%string -> host_benign own a b) by (intros h a b H1 H2; apply B; apply HI; exists h; auto).
  destruct (M B' q) as [M1 M2]. rewrite M1, M2. cbn [fst snd In]. split; split.
  - intros [[]|(h & a & b & H1 & H2 & H3)]. exists a, b. rewrite HI. split; auto. exists h. auto.
  - intros (a & b & H1 & H2). apply HI in H1 as (h & H1 & H3). right. exists h, a, b. auto.
  - intros [[]|(h & a & b & H1 & H2 & H3)]. exists a, b. rewrite HI. split; auto. exists h. auto.
  - intros (a & b & H1 & H2). apply HI in H1 as (h & H1 & H3). right. exists h, a, b. auto.
Qed.

(** ** Pairs of one namespace *)
Lemma ps_diff_len : forall s t d p, plain s -> plain t -> ps_diff (p :: s) t = Some d -> plain (p :: s) -> In p t -> List.length d <= List.length s.
Proof using.
  intros s t d p Hs' Ht E Hp' Hpt. unfold ps_diff in E. rewrite (plain_canonical _ Hp'), (plain_canonical t Ht) in E. cbn [bind] in E.
  rewrite (plain_without _ Hp'), (plain_without t Ht) in E. replace (block_peer_set (ipb_sub [] [])) with (@nil peer) in E by reflexivity. injection E as <-.
  match goal with |- List.length ?x <= _ => change x with (filter (fun q => negb (pmem q t)) (p :: s)) end. cbn [filter]. rewrite (proj2 (pmem_In p t) Hpt). cbn [negb]. clear. induction s as [|x s IH]; cbn; [lia|]. destruct (negb (pmem x t)); cbn; lia.
Qed.
Lemma by_namespace_spec : forall fuel from to, List.length from <= fuel -> pods_only cl from -> known to ->
  exists pairs, by_namespace cl fuel from to = Some pairs /\
    (forall f d, In (f, d) pairs -> pods_only cl f /\ known d /\ (forall q, In q f -> In q from) /\ (forall q, In q d -> In q to)) /\
    forall q t, (exists f d, In (f, d) pairs /\ In q f /\ In t d) <-> In q from /\ In t to /\ cl_ns cl t <> None /\ cl_ns cl t = cl_ns cl q.
Proof using Hc Hk.
  induction fuel as [|fuel IH]; intros from to L Pf Kt.
  - destruct from; [|cbn in L; lia]. exists []. split; auto. split; [intros f d []|]. intros q t. split; [intros (f & d & [] & _)|intros [[] _]].
  - destruct from as [|p from]; [exists []; split; auto; split; [intros f d []|]; intros q t; split; [intros (f & d & [] & _)|intros [[] _]]|].
    cbn [by_namespace]. destruct (Pf p (or_introl eq_refl)) as (Hp & i & ->). cbn [is_block].
    set (pods := namespace_pods cl (cl_ns cl (Named 0 i))). pose proof (ns_pods_plain cl Hc (cl_ns cl (Named 0 i))) as Pp. fold pods in Pp.
    assert (Nn : cl_ns cl (Named 0 i) <> None) by (destruct (Hc _ Hp) as (k & n & E & X); injection E as <- <-; apply X; reflexivity).
    assert (Mp : forall q, In q pods <-> In q (cl_peers cl) /\ cl_ns cl q = cl_ns cl (Named 0 i)).
    { intros q. unfold pods. rewrite (namespace_pods_In cl (cl_ns cl (Named 0 i)) q). destruct (cl_ns cl (Named 0 i)); [reflexivity|congruence]. }
    pose proof (pods_plain cl _ Pf) as Pl. pose proof (known_plain to Kt) as Pt.
    destruct (plain_inter _ _ Pl Pp) as (f & Ef & _ & Mf). rewrite Ef. cbn [bind].
    destruct (plain_inter _ _ Pt Pp) as (d & Ed & _ & Md). rewrite Ed. cbn [bind].
    destruct (plain_diff _ _ Pl Pp) as (rest & Er & _ & Mr). rewrite Er. cbn [bind].
    assert (Lr : List.length rest <= fuel).
    { assert (In (Named 0 i) pods) by (apply Mp; auto). assert (plain from) by (intros q Hq; apply Pl; cbn; auto).
      pose proof (ps_diff_len from pods rest (Named 0 i) H0 Pp Er Pl H). cbn in L. lia. }
    destruct (IH rest to Lr) as (pairs & Eb & S1 & S2); auto.
    { intros q Hq. apply Mr in Hq as [Hq _]. apply Pf. exact Hq. }
    rewrite Eb. cbn [bind]. exists ((f, d) :: pairs). split; auto. split.
    + intros f' d' [H|H].
      * injection H as <- <-. split; [intros q Hq; apply Mf in Hq as [Hq _]; auto|]. split; [intros q Hq; apply Md in Hq as [Hq _]; auto|].
        split; intros q Hq; [apply Mf in Hq|apply Md in Hq]; tauto.
      * destruct (S1 f' d' H) as (A1 & A2 & A3 & A4). split; auto. split; auto. split; auto. intros q Hq. apply A3 in Hq. apply Mr in Hq. tauto.
    + intros q t. split.
      * intros (f' & d' & [H|H] & H1 & H2).
        -- injection H as <- <-. apply Mf in H1 as [H1 H1']. apply Md in H2 as [H2 H2']. apply Mp in H1' as [_ H1']. apply Mp in H2' as [_ H2'].
           split; auto. split; auto. rewrite H2', H1'. auto.
        -- destruct (proj1 (S2 q t)) as (A1 & A2 & A3 & A4); [exists f', d'; auto|]. apply Mr in A1 as [A1 _]. auto.
      * intros (H1 & H2 & H3 & H4). destruct (pmem q pods) eqn:Em.
        -- apply pmem_In in Em. exists f, d. split; [left; auto|]. split; [apply Mf; auto|]. apply Md. split; auto. apply Mp. split; auto. rewrite H4. apply Mp in Em. tauto.
        -- assert (N : ~ In q pods) by (rewrite <- pmem_In; congruence). destruct (proj2 (S2 q t)) as (f' & d' & A1 & A2 & A3); [|exists f', d'; split; [right|]; auto].
           split; [apply Mr; auto|auto].
Qed.
End Hosts.

(** ** The connections of a rule *)
Section Rules.
Context (reg : list peer) (R : reg_ok reg).
Context (cl : cluster) (Hc : cluster_ok cl) (Hk : kinds_ok cl) (HC : container reg (cl_peers cl)).
Context (Hp : forall p nm n pr, assoc_s nm (cl_ports cl p) = Some (n, pr) -> (1 <= n <= 65535)%Z).
Context (svcs : list service) (Hs : services_ok cl svcs).
Let K := std_alg reg R.
Let A := cube_ops std_dom std_all reg.
Let W := cube_laws std_dom std_rest reg reg std_peers [Ivl 0 255] K.
Notation space := (a_space std_dom).
Notation from := (a_src reg).
Notation to := (a_dst reg).
Notation ok := (a_ok std_dom std_rest).
Notation mk := (conns_of std_dom reg (cl_ports cl)).
Lemma known_pok : forall s, known cl s -> pok reg s.
Proof using Hc HC. intros s H. exact (plain_pok cl reg HC s (known_plain cl Hc s H) H). Qed.
Lemma pair_tcp_spec : forall s d, pok reg s -> pok reg d -> ok (pair_conns mk s d (Some [Ivl 6 6]%Z)) /\
  forall pt, space pt -> (pt @ pair_conns mk s d (Some [Ivl 6 6]%Z) <-> pt_in (from pt) s /\ pt_in (to pt) d /\ pt 2 = 6%Z).
Proof using R Hp.
  intros s d Ps Pd. unfold pair_conns. match goal with |- ok (mk ?k) /\ _ => assert (DK : dict_ok std_dom reg k) end.
  { constructor; cbn; auto. split; [cbn; lia|]. intros z Hz. apply one_mem in Hz. lia. }
  destruct (std_conns_of_spec reg R (cl_ports cl) Hp _ DK) as [OK M]. split; [exact OK|].
  intros pt Sp. rewrite (M pt Sp). unfold dict_rest. cbn [k_src k_dst k_proto k_sports k_dports k_methods k_hosts k_paths k_type k_code opt]. rewrite one_mem. clear.
  split; [intros [(H1 & H2 & H & _) _]; repeat split; auto; lia|]. intros (H1 & H2 & H). split; auto. repeat apply conj; auto; rewrite H; discriminate.
Qed.
Lemma pair_spec : forall s d, pok reg s -> pok reg d -> ok (pair_conns mk s d None) /\
  forall pt, space pt -> (pt @ pair_conns mk s d None <-> pt_in (from pt) s /\ pt_in (to pt) d).
Proof using R Hp. intros s d Ps Pd. exact (rect_spec reg R cl Hp s d Ps Pd). Qed.
Lemma or_step : forall x y (P Q : conn -> Prop), ok x /\ (forall pt, space pt -> (pt @ x <-> P pt)) -> ok y /\ (forall pt, space pt -> (pt @ y <-> Q pt)) ->
  ok (c_or A x y) /\ forall pt, space pt -> (pt @ c_or A x y <-> P pt \/ Q pt).
Proof using K W.
  intros x y P Q [Ox Mx] [Oy My]. split; [exact (l_or_ok _ _ _ _ _ _ _ _ _ W x y Ox Oy)|]. intros pt Sp.
  refine (iff_trans (l_or _ _ _ _ _ _ _ _ _ W x y pt Ox Oy Sp) _). rewrite (Mx pt Sp), (My pt Sp). reflexivity.
Qed.
Lemma pbool_true : forall s, pbool s = true -> s <> [].
Proof using. intros [|p s] H; [discriminate|discriminate]. Qed.
Lemma pbool_no : forall s x, pbool s = false -> pt_in x s -> False.
Proof using. intros s x H X. apply pbool_false in H. subst s. destruct x; cbn in X; [destruct X|destruct X as (l & [] & _)]. Qed.
(** [t] is in the list of a rule, or in the namespace of [x] and in the list of the root namespace. *)
Definition rule_reach (r : peerset * peerset) (x t : point) : Prop :=
  pt_in t (fst r) \/ (named_dns t /\ pt_in t (snd r)) \/
  exists i j, x = PN 0 i /\ t = PN 0 j /\ In (Named 0 j) (snd r) /\ cl_ns cl (Named 0 j) = cl_ns cl (Named 0 i).
Lemma rule_props_spec : forall sel any r c, pods_only cl sel -> known cl (fst r) -> known cl (snd r) -> rule_props cl A mk sel any r = Some c ->
  ok c /\ (forall pt, space pt -> pt @ c -> pt_in (from pt) sel) /\
  forall pt, space pt -> pt 2 = 6%Z -> (pt @ c <-> pt_in (from pt) sel /\ ((any = true /\ is_addr (to pt)) \/ rule_reach r (from pt) (to pt))).
Proof using R Hc Hk HC Hp K W.
  intros sel any [n sp] c Ps Kn Ks E. cbn [fst snd] in *. unfold rule_props in E. cbn [fst snd] in E.
  assert (Ksel : known cl sel) by (intros q H; apply (Ps q H)).
  pose proof (known_pok sel Ksel) as Osel. pose proof (known_pok n Kn) as On. pose proof (known_pok sp Ks) as Osp.
  assert (KD : known cl (dns_entries cl)) by (intros q H; unfold dns_entries in H; apply select_In in H; tauto).
  assert (KU : known cl (ps_union n sp)) by (intros q H; apply ps_union_In in H as [H|H]; auto).
  destruct (plain_inter _ _ (known_plain cl Hc _ KD) (known_plain cl Hc _ KU)) as (dns & Ed & _ & Md). rewrite Ed in E. cbn [bind] in E.
  assert (Kdns : known cl dns) by (intros q H; apply Md in H as [H _]; auto). pose proof (known_pok dns Kdns) as Odns.
  destruct (by_namespace_spec cl Hc Hk (List.length sel) sel sp (le_n _) Ps Ks) as (pairs & Eb & S1 & S2). rewrite Eb in E. cbn [bind] in E.
  set (p1 := if any then c_or A (c_empty A) (pair_conns mk sel all_ips_set None) else c_empty A) in E.
  set (p2 := if pbool sel && pbool dns then c_or A p1 (pair_conns mk sel dns (Some [Ivl 6 6]%Z)) else p1) in E.
  set (p3 := if pbool sel && pbool n then c_or A p2 (pair_conns mk sel n None) else p2) in E.
  assert (X0 : ok (c_empty A) /\ forall pt, space pt -> (pt @ c_empty A <-> False)).
  { split; [exact (l_empty_ok _ _ _ _ _ _ _ _ _ W)|]. intros pt _. split; [|tauto]. exact (l_empty _ _ _ _ _ _ _ _ _ W pt). }
  destruct (all_ips_set_spec reg) as [Oips Mips].
  assert (X1 : ok p1 /\ forall pt, space pt -> (pt @ p1 <-> any = true /\ pt_in (from pt) sel /\ is_addr (to pt))).
  { unfold p1. destruct any.
    - destruct (or_step _ _ _ _ X0 (pair_spec sel all_ips_set Osel Oips)) as [O1 M1]. split; auto. intros pt Sp. rewrite (M1 pt Sp), Mips. clear. tauto.
    - destruct X0 as [O0 M0]. split; auto. intros pt Sp. rewrite (M0 pt Sp). clear. split; [tauto|intros [H _]; discriminate]. }
  assert (X2 : ok p2 /\ forall pt, space pt -> (pt @ p2 <-> any = true /\ pt_in (from pt) sel /\ is_addr (to pt) \/ pt_in (from pt) sel /\ pt_in (to pt) dns /\ pt 2 = 6%Z)).
  { unfold p2. destruct (pbool sel && pbool dns) eqn:Ebb.
    - exact (or_step _ _ _ _ X1 (pair_tcp_spec sel dns Osel Odns)).
    - destruct X1 as [O1 M1]. split; auto. intros pt Sp. rewrite (M1 pt Sp). split; auto. intros [H|(H1 & H2 & _)]; auto. exfalso.
      apply andb_false_iff in Ebb as [H|H]; [apply (pbool_no sel (from pt) H H1)|apply (pbool_no dns (to pt) H H2)]. }
  assert (X3 : ok p3 /\ forall pt, space pt -> (pt @ p3 <-> (any = true /\ pt_in (from pt) sel /\ is_addr (to pt) \/ pt_in (from pt) sel /\ pt_in (to pt) dns /\ pt 2 = 6%Z) \/
      pt_in (from pt) sel /\ pt_in (to pt) n)).
  { unfold p3. destruct (pbool sel && pbool n) eqn:Ebb.
    - exact (or_step _ _ _ _ X2 (pair_spec sel n Osel On)).
    - destruct X2 as [O1 M1]. split; auto. intros pt Sp. rewrite (M1 pt Sp). split; auto. intros [H|(H1 & H2)]; auto. exfalso.
      apply andb_false_iff in Ebb as [H|H]; [apply (pbool_no sel (from pt) H H1)|apply (pbool_no n (to pt) H H2)]. }
  assert (FD : forall l acc (P : conn -> Prop), (forall f d, In (f, d) l -> pods_only cl f /\ known cl d) -> ok acc /\ (forall pt, space pt -> (pt @ acc <-> P pt)) ->
    let res := fold_left (fun p fd => if pbool (fst fd) && pbool (snd fd) then c_or A p (pair_conns mk (fst fd) (snd fd) None) else p) l acc in
    ok res /\ forall pt, space pt -> (pt @ res <-> P pt \/ exists f d, In (f, d) l /\ pt_in (from pt) f /\ pt_in (to pt) d)).
  { clear - R Hc HC Hp W. induction l as [|[f d] l IH]; intros acc P Hl [Oa Ma].
    - cbn. split; auto. intros pt Sp. rewrite (Ma pt Sp). split; auto. intros [H|(f & d & [] & _)]; auto.
    - cbn [fold_left fst snd]. destruct (Hl f d (or_introl eq_refl)) as [Pf Kd].
      assert (Kf : known cl f) by (intros q H; apply (Pf q H)).
      destruct (pbool f && pbool d) eqn:Ebb.
      + destruct (IH (c_or A acc (pair_conns mk f d None)) (fun pt => P pt \/ (pt_in (from pt) f /\ pt_in (to pt) d)) (fun f' d' H => Hl f' d' (or_intror H))) as [O1 M1].
        { exact (or_step _ _ _ _ (conj Oa Ma) (pair_spec f d (known_pok f Kf) (known_pok d Kd))). }
        split; auto. intros pt Sp. rewrite (M1 pt Sp). split.
        * intros [[H|H]|(f' & d' & H1 & H2)]; [auto|right; exists f, d; cbn; tauto|right; exists f', d'; cbn; tauto].
        * intros [H|(f' & d' & [H1|H1] & H2)]; [auto|injection H1 as <- <-; auto|right; exists f', d'; auto].
      + destruct (IH acc P (fun f' d' H => Hl f' d' (or_intror H)) (conj Oa Ma)) as [O1 M1]. split; auto. intros pt Sp. rewrite (M1 pt Sp). split.
        * intros [H|(f' & d' & H1 & H2)]; [auto|right; exists f', d'; cbn; tauto].
        * intros [H|(f' & d' & [H1|H1] & H2 & H3)]; [auto| |right; exists f', d'; auto]. injection H1 as <- <-. exfalso.
          apply andb_false_iff in Ebb as [H|H]; [apply (pbool_no f (from pt) H H2)|apply (pbool_no d (to pt) H H3)]. }
  assert (S1' : forall f d, In (f, d) pairs -> pods_only cl f /\ known cl d) by (intros f d H; destruct (S1 f d H) as (H1 & H2 & _); auto).
  destruct (FD pairs p3 _ S1' X3) as [O4 M4]. injection E as <-. split; [exact O4|].
  assert (PP : forall x s, known cl s -> pt_in x s -> exists k i, x = PN k i /\ In (Named k i) s).
  { intros [k i|z] s Ks' H; cbn in H; [exists k, i; auto|]. destruct H as (l & H & _). exfalso. pose proof (known_plain cl Hc s Ks' _ H) as X. discriminate. }
  split.
  - intros pt Sp H. apply (M4 pt Sp) in H as [[[H|H]|H]|(f & d & H1 & H2 & H3)]; try tauto. destruct (S1 f d H1) as (A1 & A2 & A3 & _).
    assert (Kf : known cl f) by (intros q Hq; apply (A1 q Hq)). destruct (PP _ f Kf H2) as (k & i & E & H4). rewrite E. cbn. apply A3. exact H4.
  - intros pt Sp T. refine (iff_trans (M4 pt Sp) _). unfold rule_reach. cbn [fst snd].
    assert (DN : pt_in (to pt) dns <-> named_dns (to pt) /\ (pt_in (to pt) n \/ pt_in (to pt) sp)).
    { split.
      - intros H. destruct (PP _ dns Kdns H) as (k & i & E & H1). rewrite E. cbn. apply Md in H1 as [H1 H2]. unfold dns_entries in H1. apply select_In in H1 as [_ H1].
        apply ps_union_In in H2. split; [|exact H2]. destruct k as [|[|[|k]]]; try discriminate. reflexivity.
      - intros [H1 H2]. destruct (to pt) as [k i|z]; [|destruct H1]. cbn in *. subst k. apply Md. split.
        + unfold dns_entries. apply select_In. split; [destruct H2; auto|reflexivity].
        + apply ps_union_In. exact H2. }
    assert (PR : (exists f d, In (f, d) pairs /\ pt_in (from pt) f /\ pt_in (to pt) d) <-> pt_in (from pt) sel /\
      exists i j, from pt = PN 0 i /\ to pt = PN 0 j /\ In (Named 0 j) sp /\ cl_ns cl (Named 0 j) = cl_ns cl (Named 0 i)).
    { split.
      - intros (f & d & H1 & H2 & H3). destruct (S1 f d H1) as (A1 & A2 & A3 & A4). assert (Kf : known cl f) by (intros q Hq; apply (A1 q Hq)).
        destruct (PP _ f Kf H2) as (k & i & Ei & H4). destruct (PP _ d A2 H3) as (k' & j & Ej & H5).
        destruct (proj1 (S2 (Named k i) (Named k' j))) as (B1 & B2 & B3 & B4); [exists f, d; auto|].
        destruct (Ps _ B1) as (_ & i' & Q). injection Q as -> ->. destruct (Hc _ (Ks _ B2)) as (k2 & j2 & Q & X). injection Q as <- <-.
        assert (Q : k' = 0) by (apply X; exact B3). subst k'.
        rewrite Ei. split; [cbn; exact B1|]. exists i', j. auto.
      - intros (H0 & i & j & Ei & Ej & H1 & H2). rewrite Ei in *. rewrite Ej in *. cbn in H0 |- *.
        destruct (proj2 (S2 (Named 0 i) (Named 0 j))) as (f & d & B1 & B2 & B3); [|exists f, d; auto].
        split; auto. split; auto. split; auto. destruct (Hc _ (Ks _ H1)) as (k2 & j2 & Q & X). injection Q as <- <-. apply X. reflexivity. }
    rewrite PR, DN. clear - T. split.
    + intros [[[H|H]|H]|H]; tauto.
    + intros [H1 [[H2 H3]|[H|[H|H]]]]; tauto.
Qed.
End Rules.
