(** * What the Istio policy parser makes of sources, operations, conditions and rules *)
From Coq Require Import ZArith List Bool Arith Lia String Ascii.
From Verif Require Import IntervalModel IntervalFacts HyperModel HyperFacts HyperOps HyperDims HyperTop HyperInst
                          PropHyperCube ConnModel ConnFacts TextModel TextFacts PortProtoModel PortProtoFacts PeerModel PeerFacts PeerSetFacts
                          PolicyModel PolicyLaws PolicyFacts LayerFacts ConnAlg StdDims PropLayers YamlModel ClusterModel K8sParserModel SelectorFacts
                          ConnDict NamedExcl PropSelectors K8sParserFacts CalicoSelectorModel CalicoSelectorFacts CalicoSelectorGram CalicoSelectorSets
                          CalicoParserModel CalicoParserFacts IstioValueModel PropIstioValues IstioParserModel.
Import ListNotations.
Local Open Scope string_scope.
Local Open Scope list_scope.
Local Open Scope nat_scope.
Local Opaque min_pod_index max_pod_index min_ipv6_index max_ipv6_index max_ipv4_index v4max v6min v6max.

(** ** What the elements of an AuthorizationPolicy mean
    (https://istio.io/latest/docs/reference/config/security/authorization-policy/) *)
(** A positive list: one of its entries holds, unless the list is not given (or empty).  A negative list: no entry holds. *)
Definition one_of (m : list (string * yaml)) (k : string) (P : yaml -> Prop) : Prop :=
  forall l, yget m k = YList l -> l <> [] -> exists e, In e l /\ P e.
Definition none_of (m : list (string * yaml)) (k : string) (P : yaml -> Prop) : Prop :=
  forall l, yget m k = YList l -> forall e, In e l -> ~ P e.
Definition given (m : list (string * yaml)) (k : string) : Prop := exists l, yget m k = YList l.
(** A value (exact, prefix, suffix or presence) holds of a text. *)
Definition value_is (e : yaml) (w : word) : Prop := exists s, e = YStr s /\ value_matches (text s) w.

Section Spec.
Context (cl : cluster) (net : yaml -> option cidr) (sa : peer -> string).
(** The point [x] is a pod of the cluster in the namespace [ns] that runs as the service account [acc]. *)
Definition runs_as (x : point) (ns acc : string) : Prop :=
  exists i, x = PN 0 i /\ In (Named 0 i) (cl_peers cl) /\ cl_ns cl (Named 0 i) = Some ns /\ sa (Named 0 i) = acc.
Definition is_workload (x : point) : Prop := exists ns acc, runs_as x ns acc.
Definition identity (ns acc : string) : string := ("cluster.local/ns/" ++ ns ++ "/sa/" ++ acc)%string.
Definition ns_entry (x : point) (e : yaml) : Prop := exists ns acc, runs_as x ns acc /\ value_is e (text ns).
Definition principal_entry (x : point) (e : yaml) : Prop := exists ns acc, runs_as x ns acc /\ value_is e (text (identity ns acc)).
(** Sources: pods, host endpoints and addresses outside the cluster. *)
Definition source_point (x : point) : Prop := (member (cl_peers cl) x /\ ~ named_dns x) \/ is_addr x.
(** All fields of a source hold; namespaces and principals are those of pods of the cluster, addresses those outside of it. *)
Definition ns_match (m : list (string * yaml)) (kpos kneg : string) (x : point) : Prop :=
  is_workload x /\ one_of m kpos (ns_entry x) /\ none_of m kneg (ns_entry x).
Definition principal_match (m : list (string * yaml)) (kpos kneg : string) (x : point) : Prop :=
  is_workload x /\ one_of m kpos (principal_entry x) /\ none_of m kneg (principal_entry x).
Definition ip_match (m : list (string * yaml)) (kpos kneg : string) (x : point) : Prop :=
  is_addr x /\ one_of m kpos (fun e => in_net net e x) /\ none_of m kneg (fun e => in_net net e x).
Definition source_matches (m : list (string * yaml)) (x : point) : Prop :=
  source_point x /\
  (given m "namespaces" \/ given m "notNamespaces" -> ns_match m "namespaces" "notNamespaces" x) /\
  (given m "principals" \/ given m "notPrincipals" -> principal_match m "principals" "notPrincipals" x) /\
  (given m "ipBlocks" \/ given m "notIpBlocks" -> ip_match m "ipBlocks" "notIpBlocks" x).
(** Ports are numbers, or texts of numbers. *)
Definition port_is (n : Z) (e : yaml) : Prop := yint e = Some n \/ e = YStr (str_of_Z n).
Definition port_match (m : list (string * yaml)) (kpos kneg : string) (n : Z) : Prop := one_of m kpos (port_is n) /\ none_of m kneg (port_is n).
(** The number of a method in a connection. *)
Definition method_names : list string := ["GET"; "HEAD"; "POST"; "PUT"; "DELETE"; "CONNECT"; "OPTIONS"; "TRACE"; "PATCH"].
Definition method_is (z : Z) (e : yaml) : Prop := exists nm, (0 <= z)%Z /\ nth_error method_names (Z.to_nat z) = Some nm /\ value_is e (text nm).
Definition operation_matches (m : list (string * yaml)) (n z : Z) (h p : word) : Prop :=
  port_match m "ports" "notPorts" n /\
  (one_of m "methods" (method_is z) /\ none_of m "notMethods" (method_is z)) /\
  (one_of m "hosts" (fun e => value_is e h) /\ none_of m "notHosts" (fun e => value_is e h)) /\
  (one_of m "paths" (fun e => value_is e p) /\ none_of m "notPaths" (fun e => value_is e p)).
Definition condition_matches (m : list (string * yaml)) (x : point) (n : Z) : Prop :=
  (yget m "key" = YStr "source.ip" -> ip_match m "values" "notValues" x) /\
  (yget m "key" = YStr "source.namespace" -> ns_match m "values" "notValues" x) /\
  (yget m "key" = YStr "source.principal" -> principal_match m "values" "notValues" x) /\
  (yget m "key" = YStr "destination.port" -> port_match m "values" "notValues" n).
(** A rule matches if some source, some operation and all conditions match; operations and conditions are about TCP. *)
Definition entry_of (k : string) (e : yaml) (m : list (string * yaml)) : Prop := exists d, e = YMap d /\ yget d k = YMap m.
Definition istio_rule_matches (m : list (string * yaml)) (x : point) (pr n z : Z) (h p : word) : Prop :=
  source_point x /\
  (given m "from" -> exists l e s, yget m "from" = YList l /\ In e l /\ entry_of "source" e s /\ source_matches s x) /\
  (given m "to" -> pr = 6%Z /\ exists l e o, yget m "to" = YList l /\ In e l /\ entry_of "operation" e o /\ operation_matches o n z h p) /\
  (given m "when" -> pr = 6%Z /\ forall l e, yget m "when" = YList l -> In e l -> exists c, e = YMap c /\ condition_matches c x n).
End Spec.

(** ** Texts *)
Lemma span_app : forall f a b, forallb f a = true -> match b with c :: _ => f c = false | [] => True end -> span f (a ++ b) = (a, b).
Proof.
  induction a as [|c a IH]; intros b Ha Hb; cbn [app].
  - destruct b as [|c b]; auto. cbn [span]. rewrite Hb. reflexivity.
  - cbn [forallb] in Ha. apply andb_true_iff in Ha as [H1 H2]. cbn [span]. rewrite H1, IH; auto.
Qed.
Lemma drop_prefix_app : forall p l, drop_prefix p (p ++ l) = Some l.
Proof. induction p as [|c p IH]; intros l; auto. cbn [app drop_prefix]. rewrite Ascii.eqb_refl. auto. Qed.
(** Names of letters, digits, dashes and underscores. *)
Definition account_char (c : ascii) : bool := let n := nat_of_ascii c in
  ((48 <=? n) && (n <=? 57) || (65 <=? n) && (n <=? 90) || (97 <=? n) && (n <=? 122) || (n =? 95) || (n =? 45))%nat.
Lemma account_char_group : forall c, account_char c = true -> group_char c = true.
Proof. intros [[] [] [] [] [] [] [] []] H; vm_compute in H |- *; congruence. Qed.
Definition plain_name (s : string) : Prop := s <> "" /\ forallb account_char (text s) = true.
Lemma group_app : forall s b, plain_name s -> match b with c :: _ => group_char c = false | [] => True end -> group (text s ++ b) = Some (text s, b).
Proof.
  intros s b [N F] Hb. assert (F' : forallb group_char (text s) = true) by (rewrite forallb_forall in *; intros c Hc; apply account_char_group, F, Hc). clear F. rename F' into F. unfold group. rewrite (span_app group_char (text s) b F Hb). destruct s; [congruence|]. reflexivity.
Qed.
Lemma text_app : forall a b, text (a ++ b)%string = text a ++ text b.
Proof. induction a as [|c a IH]; intros b; [reflexivity|]. cbn. f_equal. apply IH. Qed.
Lemma identity_text : forall ns acc, text (identity ns acc) = text "cluster.local/ns/" ++ text ns ++ text "/sa/" ++ text acc.
Proof. intros ns acc. unfold identity. rewrite !text_app. reflexivity. Qed.
Lemma components_identity : forall ns acc, plain_name ns -> plain_name acc -> principal_components (text (identity ns acc)) = Some (ns, acc).
Proof.
  intros ns acc Hn Ha. rewrite identity_text.
  assert (E : principal_at (text "cluster.local/ns/" ++ text ns ++ text "/sa/" ++ text acc) = Some (ns, acc)).
  { unfold principal_at. change (text "cluster.local/ns/" ++ text ns ++ text "/sa/" ++ text acc)
      with (text "cluster" ++ "."%char :: (text "local/ns/" ++ text ns ++ text "/sa/" ++ text acc)).
    rewrite drop_prefix_app. cbn [bind drop_any]. change (Ascii.eqb "." "010") with false. cbn [bind]. rewrite drop_prefix_app. cbn [bind].
    rewrite group_app by (auto; reflexivity). cbn [bind fst snd]. rewrite drop_prefix_app. cbn [bind].
    rewrite <- (app_nil_r (text acc)), group_app by (auto; exact I). cbn [bind fst]. rewrite !untext_text. reflexivity. }
  destruct (text "cluster.local/ns/" ++ text ns ++ text "/sa/" ++ text acc) as [|c t] eqn:El; [discriminate|].
  cbn [principal_components]. rewrite E. reflexivity.
Qed.

(** ** Sets of sources *)
Section Sources.
Context (reg : list peer) (R : reg_ok reg).
Context (cl : cluster) (Hc : cluster_ok cl) (Hk : kinds_ok cl) (HC : container reg (cl_peers cl)).
Context (net : yaml -> option cidr) (Hnet : forall y c, net y = Some c -> cidr_ok c) (sa : peer -> string).
(** Namespaces of pods are known, not empty, and have no star. *)
Definition namespaces_ok (nss : list string) : Prop :=
  forall q n, In q (cl_peers cl) -> cl_ns cl q = Some n -> (n <> "" /\ ~ In "*"%char (text n)) /\ In n nss.
(** Namespaces and service accounts are texts of letters, digits, underscores and dashes. *)
Definition accounts_ok : Prop := forall i n, In (Named 0 i) (cl_peers cl) -> cl_ns cl (Named 0 i) = Some n -> plain_name n /\ plain_name (sa (Named 0 i)).

Lemma pod_kind : forall q n, In q (cl_peers cl) -> cl_ns cl q = Some n -> exists i, q = Named 0 i.
Proof using Hc. intros q n Hq E. destruct (Hc q Hq) as (k & i & -> & X). rewrite E in X. exists i. f_equal. apply X. discriminate. Qed.

(** A union over a list of texts. *)
Lemma fold_union_pt : forall {X} (f : X -> peerset) l r x, pt_in x (fold_left (fun r n => ps_union r (f n)) l r) <-> pt_in x r \/ exists n, In n l /\ pt_in x (f n).
Proof using.
  induction l as [|n l IH]; intros r x; cbn [fold_left In].
  - split; auto. intros [H|(n & [] & _)]; auto.
  - rewrite IH, pt_in_union. split.
    + intros [[H|H]|(k & H & H')]; eauto.
    + intros [H|(k & [<-|H] & H')]; eauto.
Qed.
Lemma fold_union_pok : forall {X} (f : X -> peerset) l r, pok reg r -> (forall n, In n l -> pok reg (f n)) -> pok reg (fold_left (fun r n => ps_union r (f n)) l r).
Proof using.
  induction l as [|n l IH]; intros r Hr Hf; cbn [fold_left]; auto. apply IH; [apply pok_union; auto; apply Hf; left; auto|intros; apply Hf; right; auto].
Qed.
Lemma ns_pods_pok : forall n, pok reg (namespace_pods cl (Some n)).
Proof using Hc HC. intros n. apply (plain_pok cl reg HC); [apply ns_pods_plain; auto|]. intros q Hq. apply namespace_pods_In in Hq as [Hq _]; auto. Qed.
Lemma ns_pods_pt : forall n x, pt_in x (namespace_pods cl (Some n)) <-> exists acc, runs_as cl sa x n acc.
Proof using Hc.
  intros n x. rewrite plain_pt by (apply ns_pods_plain; auto). unfold runs_as. split.
  - intros (q & Hq & k & i & -> & ->). apply namespace_pods_In in Hq as [Hq E]; auto. destruct (pod_kind _ _ Hq E) as (j & Ej). injection Ej as -> <-. exists (sa (Named 0 i)), i. auto.
  - intros (acc & i & -> & Hi & E & _). exists (Named 0 i). split; [apply namespace_pods_In; auto; split; auto|]. exists 0, i. auto.
Qed.
Lemma runs_as_ns : forall x n acc n' acc', runs_as cl sa x n acc -> runs_as cl sa x n' acc' -> n = n' /\ acc = acc'.
Proof using. intros x n acc n' acc' (i & -> & _ & E1 & <-) (j & Ej & _ & E2 & <-). injection Ej as <-. split; congruence. Qed.

(** An entry that is read as the set of sources it holds of. *)
Definition reads (f : yaml -> option peerset) (P : point -> yaml -> Prop) : Prop :=
  forall y s, f y = Some s -> pok reg s /\ forall x, pt_in x s <-> P x y.
Lemma ns_peers_spec : forall nss, namespaces_ok nss -> reads (ns_peers cl nss) (ns_entry cl sa).
Proof using Hc HC.
  intros nss N y s E. unfold ns_peers in E. destruct (enumerated_yaml y nss) as [vs|] eqn:Ev; [|discriminate]. cbn [bind] in E. injection E as <-.
  split; [apply fold_union_pok; [apply pok_nil|intros; apply ns_pods_pok]|]. intros x. rewrite fold_union_pt. unfold ns_entry.
  assert (Z : pt_in x [] <-> False). { destruct x; cbn; split; try tauto. intros (l & [] & _). } rewrite Z.
  destruct y as [| | | |v|l|m]; cbn [enumerated_yaml] in Ev; try discriminate.
  - split.
    + intros [[]|(n & Hn & Hx)]. apply ns_pods_pt in Hx as (acc & Hx). exists n, acc. split; auto. exists v. split; auto.
      destruct Hx as (i & _ & Hi & Ei & _). destruct (N _ _ Hi Ei) as [[N1 _] N2]. apply (enumerated_spec v nss vs Ev n) in Hn; [tauto|congruence].
    + intros (n & acc & Hx & v' & Ev' & M). injection Ev' as <-. right. exists n. split; [|apply ns_pods_pt; eauto].
      destruct Hx as (i & _ & Hi & Ei & _). destruct (N _ _ Hi Ei) as [[N1 _] N2]. apply (enumerated_spec v nss vs Ev n); [congruence|auto].
  - destruct (existsb _ l); [discriminate|]. injection Ev as <-. split; [intros [[]|(n & [] & _)]|intros (n & acc & _ & v & H & _); discriminate].
  - destruct (assoc_s "*" m); [discriminate|]. injection Ev as <-. split; [intros [[]|(n & [] & _)]|intros (n & acc & _ & v & H & _); discriminate].
Qed.

Lemma sa_pods_pok : forall n s, pok reg (sa_pods cl sa s n).
Proof using Hc HC. intros n s. apply (plain_pok cl reg HC); [apply select_plain; auto; apply cluster_plain; auto|]. intros q Hq. apply select_In in Hq as [Hq _]; auto. Qed.
Lemma sa_pods_pt : forall n s x, pt_in x (sa_pods cl sa s n) <-> runs_as cl sa x n s.
Proof using Hc.
  intros n s x. rewrite plain_pt by (apply select_plain; apply cluster_plain; auto). unfold runs_as, sa_pods. split.
  - intros (q & Hq & k & i & -> & ->). apply select_In in Hq as [Hq E]. apply andb_true_iff in E as [E E3]. apply andb_true_iff in E as [E1 E2].
    cbn in E1. apply Nat.eqb_eq in E1 as ->. apply String.eqb_eq in E2. destruct (cl_ns cl (Named 0 i)) as [n'|] eqn:En; [|discriminate]. apply String.eqb_eq in E3 as ->.
    exists i. auto.
  - intros (i & -> & Hi & En & Es). exists (Named 0 i). split; [|exists 0, i; auto]. apply select_In. split; auto. rewrite En, Es, !String.eqb_refl. reflexivity.
Qed.
Lemma principals_spec : forall ps, principals cl sa = Some ps -> forall v, In v ps <-> exists x ns acc, runs_as cl sa x ns acc /\ v = identity ns acc.
Proof using Hc Hk.
  intros ps E v. unfold principals in E. rewrite (mapM_In _ _ _ E v). split.
  - intros (q & Hq & Eq). apply all_group_In in Hq as [Hq Dq]. destruct (is_hep q) eqn:Eh; [discriminate|]. injection Eq as <-.
    assert (cl_ns cl q <> None) by (apply (pod_iff cl Hc Hk q Hq); auto). destruct (cl_ns cl q) as [n|] eqn:En; [|congruence].
    destruct (pod_kind q n Hq En) as (i & ->). exists (PN 0 i), n, (sa (Named 0 i)). split; [exists i; auto|reflexivity].
  - intros (x & ns & acc & (i & -> & Hi & En & <-) & ->). exists (Named 0 i). split; [apply all_group_In; auto|]. cbn. rewrite En. reflexivity.
Qed.
Lemma principal_peers_spec : accounts_ok -> reads (principal_peers cl sa) (principal_entry cl sa).
Proof using Hc Hk HC.
  intros N y s E. unfold principal_peers in E. destruct (principals cl sa) as [ps|] eqn:Ep; [|discriminate]. cbn [bind] in E.
  destruct (enumerated_yaml y ps) as [vs|] eqn:Ev; [|discriminate]. cbn [bind] in E. injection E as <-.
  set (f := fun v => match principal_components (text v) with Some (n, s) => sa_pods cl sa s n | None => [] end).
  assert (Ef : forall l r, fold_left (fun r v => match principal_components (text v) with Some (n, s) => ps_union r (sa_pods cl sa s n) | None => r end) l r =
                           fold_left (fun r v => ps_union r (f v)) l r).
  { induction l as [|v l IH]; intros r; auto. cbn [fold_left]. rewrite IH. f_equal. unfold f. destruct (principal_components (text v)) as [[n t]|]; reflexivity. }
  rewrite Ef.
  assert (Pf : forall v, pok reg (f v)).
  { intros v. unfold f. destruct (principal_components (text v)) as [[n t]|]; [apply sa_pods_pok|apply pok_nil]. }
  split; [apply fold_union_pok; [apply pok_nil|auto]|]. intros x. rewrite fold_union_pt. unfold principal_entry.
  assert (Z : pt_in x [] <-> False). { destruct x; cbn; split; try tauto. intros (l & [] & _). } rewrite Z.
  assert (Fi : forall x ns acc, runs_as cl sa x ns acc -> f (identity ns acc) = sa_pods cl sa acc ns).
  { intros z ns acc (i & _ & Hi & En & <-). destruct (N i ns Hi En). unfold f. rewrite components_identity; auto. }
  assert (Ne : forall ns acc, identity ns acc <> "") by (intros; discriminate).
  destruct y as [| | | |v|l|m]; cbn [enumerated_yaml] in Ev; try discriminate.
  - split.
    + intros [[]|(w & Hw & Hx)]. apply (enumerated_spec v ps vs Ev w) in Hw as [H1 H2].
      * apply (principals_spec ps Ep) in H1 as (z & ns & acc & Hz & ->). rewrite (Fi _ _ _ Hz) in Hx. apply sa_pods_pt in Hx. exists ns, acc. split; auto. exists v. auto.
      * intros -> Hp. apply (principals_spec ps Ep) in Hp as (z & ns & acc & _ & Hp). discriminate.
    + intros (ns & acc & Hx & v' & Ev' & M). injection Ev' as <-. right. exists (identity ns acc). split.
      * apply (enumerated_spec v ps vs Ev); [intros H; discriminate|]. split; auto. apply (principals_spec ps Ep). eauto.
      * rewrite (Fi _ _ _ Hx). apply sa_pods_pt. exact Hx.
  - destruct (existsb _ l); [discriminate|]. injection Ev as <-. split; [intros [[]|(n & [] & _)]|intros (n & acc & _ & v & H & _); discriminate].
  - destruct (assoc_s "*" m); [discriminate|]. injection Ev as <-. split; [intros [[]|(n & [] & _)]|intros (n & acc & _ & v & H & _); discriminate].
Qed.

Lemma union_all_spec : forall f (P : point -> yaml -> Prop) l, (forall y s, In y l -> f y = Some s -> pok reg s /\ forall x, pt_in x s <-> P x y) ->
  forall r s, union_all f l r = Some s -> pok reg r ->
  pok reg s /\ forall x, pt_in x s <-> pt_in x r \/ exists e, In e l /\ P x e.
Proof using.
  intros f P. unfold union_all. induction l as [|e l IH]; intros Hf r s E Hr; cbn [fold_left bind] in E.
  - injection E as <-. split; auto. intros x. split; auto. intros [H|(e & [] & _)]; auto.
  - destruct (f e) as [t|] eqn:Et; cbn [bind] in E.
    2:{ exfalso. clear - E. induction l; [discriminate|]. cbn [fold_left bind] in E. auto. }
    destruct (Hf e t (or_introl eq_refl) Et) as [Pt Mt]. destruct (IH (fun y s Hy => Hf y s (or_intror Hy)) _ _ E (pok_union reg r t Hr Pt)) as [A1 A2]. split; auto. intros x. rewrite A2, pt_in_union, Mt. cbn [In]. split.
    + intros [[H|H]|(k & H & H')]; eauto.
    + intros [H|(k & [<-|H] & H')]; eauto.
Qed.
Lemma diff_pok : forall s t, pok reg s -> pok reg t -> exists r, ps_diff s t = Some r /\ pok reg r /\ forall x, pt_in x r <-> pt_in x s /\ ~ pt_in x t.
Proof using.
  intros s t [S1 S2] [T1 T2]. destruct (ps_diff_ok s t S1 T1) as (r & E & O & M). exists r. split; auto. split; auto. split; auto.
  intros k n H. apply (M (PN k n)) in H as [H _]. apply S2. exact H.
Qed.
Lemma inter_pok : forall s t, pok reg s -> pok reg t -> exists r, ps_inter s t = Some r /\ pok reg r /\ forall x, pt_in x r <-> pt_in x s /\ pt_in x t.
Proof using.
  intros s t [S1 S2] [T1 T2]. destruct (ps_inter_ok s t S1 T1) as (r & E & O & M). exists r. split; auto. split; auto. split; auto.
  intros k n H. apply (M (PN k n)) in H as [H _]. apply S2. exact H.
Qed.
Lemma minus_all_spec : forall f P, reads f P -> forall l r s, minus_all f l r = Some s -> pok reg r ->
  pok reg s /\ forall x, pt_in x s <-> pt_in x r /\ forall e, In e l -> ~ P x e.
Proof using.
  intros f P Hf. unfold minus_all. induction l as [|e l IH]; intros r s E Hr; cbn [fold_left bind] in E.
  - injection E as <-. split; auto. intros x. split; [intros H; split; auto; intros e []|tauto].
  - destruct (f e) as [t|] eqn:Et; cbn [bind] in E.
    2:{ exfalso. clear - E. induction l; [discriminate|]. cbn [fold_left bind] in E. auto. }
    destruct (Hf e t Et) as [Pt Mt]. destruct (diff_pok r t Hr Pt) as (u & Eu & Pu & Mu). rewrite Eu in E. destruct (IH _ _ E Pu) as [A1 A2].
    split; auto. intros x. rewrite A2, Mu, Mt. cbn [In]. split.
    + intros [[H1 H2] H3]. split; auto. intros k [<-|H]; auto.
    + intros [H1 H2]. split; [split; auto|]. intros k H. apply H2. auto.
Qed.

(** Lists that are given and not empty, as the model reads them. *)
Lemma list_at_given : forall m k l, list_at m k = Some l <-> yget m k = YList l.
Proof using. intros m k l. unfold list_at. destruct (yget m k); split; try discriminate; intros H; injection H as ->; reflexivity. Qed.
Lemma list_at_none : forall m k, list_at m k = None <-> ~ given m k.
Proof using. intros m k. unfold list_at, given. destruct (yget m k); split; try discriminate; auto; try (intros _ (l & H); discriminate). intros H. destruct H. eauto. Qed.
Lemma one_of_at : forall m k P, yget m k <> YList [] -> (one_of m k P <-> match list_at m k with Some l => exists e, In e l /\ P e | None => True end).
Proof using.
  intros m k P N. unfold one_of. destruct (list_at m k) as [l|] eqn:El.
  - apply list_at_given in El. rewrite El in *. split; [intros H; apply H; auto; congruence|intros H l' E _; injection E as <-; auto].
  - apply list_at_none in El. split; auto. intros _ l E. destruct El. exists l. auto.
Qed.
Lemma none_of_at : forall m k P, none_of m k P <-> forall e, In e (or_nil (list_at m k)) -> ~ P e.
Proof using.
  intros m k P. unfold none_of. destruct (list_at m k) as [l|] eqn:El; cbn [or_nil].
  - apply list_at_given in El. rewrite El. split; [intros H; apply H; auto|intros H l' E; injection E as <-; auto].
  - apply list_at_none in El. split; [intros _ e []|]. intros _ l E. destruct El. exists l. auto.
Qed.

Lemma nil_pt : forall x, ~ pt_in x [].
Proof using. intros [k i|y] H; cbn in H; auto. destruct H as (l & [] & _). Qed.
Lemma workload_source : forall x, is_workload cl sa x -> source_point cl x.
Proof using. intros x (ns & acc & i & -> & Hi & _). left. split; [exact Hi|]. cbn. discriminate. Qed.

Lemma namespaces_spec : forall nss m kpos kneg s, namespaces_ok nss -> yget m kpos <> YList [] ->
  parse_namespaces cl nss (list_at m kpos) (list_at m kneg) = Some s -> pok reg s /\ forall x, pt_in x s <-> ns_match cl sa m kpos kneg x.
Proof using Hc HC.
  intros nss m kpos kneg s N Np E. unfold parse_namespaces in E. pose proof (ns_peers_spec nss N) as Rd.
  destruct (union_all _ _ _) as [r|] eqn:Er; [|discriminate]. cbn [bind] in E.
  destruct (union_all_spec _ _ _ (fun y s _ => Rd y s) _ _ Er (pok_nil reg)) as [P1 M1]. destruct (minus_all_spec _ _ Rd _ _ _ E P1) as [P2 M2]. split; auto.
  intros x. rewrite M2, M1. unfold ns_match. rewrite (one_of_at m kpos _ Np), none_of_at.
  assert (W : (pt_in x [] \/ (exists e, In e match list_at m kpos with Some l => l | None => map YStr nss end /\ ns_entry cl sa x e)) <->
              is_workload cl sa x /\ match list_at m kpos with Some l => exists e, In e l /\ ns_entry cl sa x e | None => True end).
  { pose proof (nil_pt x) as Z. split.
    - intros [H|(e & He & H)]; [tauto|]. split; [destruct H as (ns & acc & H & _); exists ns, acc; auto|]. destruct (list_at m kpos); eauto.
    - intros [(ns & acc & Hx) H]. right. destruct (list_at m kpos); auto. exists (YStr ns). destruct Hx as (i & -> & Hi & En & Ea).
      destruct (N _ _ Hi En) as [[N1 N3] N2]. split; [apply in_map; auto|]. exists ns, acc. split; [exists i; auto|]. exists ns. split; auto.
      left. auto. }
  rewrite W. tauto.
Qed.

Lemma given_dec : forall m k, given m k \/ ~ given m k.
Proof using. intros m k. destruct (list_at m k) as [l|] eqn:E; [left; exists l; apply list_at_given; auto|right; apply list_at_none; auto]. Qed.
Lemma principals_pods : forall ps x, principals cl sa = Some ps -> (pt_in x (all_group cl) <-> is_workload cl sa x).
Proof using Hc Hk.
  intros ps x E. rewrite plain_pt by (apply all_group_plain; apply cluster_plain; auto). split.
  - intros (q & Hq & k & i & -> & ->). pose proof Hq as Hq'. apply all_group_In in Hq' as [Hi D]. unfold principals in E.
    assert (Eh : is_hep (Named k i) = false).
    { destruct (is_hep (Named k i)) eqn:Eh; auto. exfalso. revert ps E Hq. generalize (all_group cl). clear - Eh. intros l. induction l as [|q l IH]; intros ps E Hq; [destruct Hq|].
      cbn [mapM] in E. destruct Hq as [->|Hq]; [rewrite Eh in E; discriminate|]. destruct (is_hep q); [discriminate|]. cbn [bind] in E.
      match type of E with bind ?e _ = _ => destruct e as [ps'|] eqn:E'; [|discriminate] end. apply (IH ps' eq_refl Hq). }
    assert (cl_ns cl (Named k i) <> None) by (apply (pod_iff cl Hc Hk _ Hi); auto). destruct (cl_ns cl (Named k i)) as [n|] eqn:En; [|congruence].
    destruct (pod_kind _ n Hi En) as (j & Ej). injection Ej as -> <-. exists n, (sa (Named 0 i)), i. auto.
  - intros (ns & acc & i & -> & Hi & _). exists (Named 0 i). split; [apply all_group_In; auto|exists 0, i; auto].
Qed.
Lemma all_group_pok : pok reg (all_group cl).
Proof using Hc HC. apply (plain_pok cl reg HC); [apply all_group_plain; apply cluster_plain; auto|]. intros q Hq. apply all_group_In in Hq as [Hq _]; auto. Qed.
Lemma first_reads : forall {X} (f : yaml -> option X) (g : X -> X -> option X) e l r, 
  fold_left (fun acc x => bind acc (fun r => bind (f x) (fun s => g r s))) (e :: l) (Some r) <> None -> f e <> None.
Proof using.
  intros X f g e l r H E. apply H. cbn [fold_left bind]. rewrite E. cbn [bind]. clear. induction l; auto.
Qed.
Lemma principal_match_spec : forall m kpos kneg s, (given m kpos \/ given m kneg) -> accounts_ok -> yget m kpos <> YList [] -> yget m kneg <> YList [] ->
  parse_principals cl sa (list_at m kpos) (list_at m kneg) = Some s -> pok reg s /\ forall x, pt_in x s <-> principal_match cl sa m kpos kneg x.
Proof using Hc Hk HC.
  intros m kpos kneg s G N Np Nn E. unfold parse_principals in E. pose proof (principal_peers_spec N) as Rd.
  match type of E with bind ?e _ = _ => destruct e as [r|] eqn:Er; [|discriminate] end. cbn [bind] in E.
  destruct (union_all_spec _ _ _ (fun y s _ => Rd y s) _ _ Er) as [P1 M1]. { destruct (list_at m kpos); [apply pok_nil|apply all_group_pok]. }
  destruct (minus_all_spec _ _ Rd _ _ _ E P1) as [P2 M2]. split; auto.
  assert (W : forall x, pt_in x r <-> is_workload cl sa x /\ match list_at m kpos with Some l => exists e, In e l /\ principal_entry cl sa x e | None => True end).
  { intros x. rewrite M1. pose proof (nil_pt x) as Z. destruct (list_at m kpos) as [l|] eqn:El; cbn [or_nil].
    - split; [intros [H|(e & He & H)]; [tauto|]; split; eauto; destruct H as (ns & acc & H & _); exists ns, acc; auto|tauto].
    - assert (Eps : exists ps, principals cl sa = Some ps).
      { destruct G as [G|(l & El')]; [apply list_at_none in El; tauto|]. apply list_at_given in El'. rewrite El' in E. cbn [or_nil] in E.
        destruct l as [|e l]; [apply list_at_given in El'; congruence|].
        assert (X : principal_peers cl sa e <> None) by (apply (first_reads (principal_peers cl sa) ps_diff e l r); unfold minus_all in E; rewrite E; discriminate).
        unfold principal_peers in X. destruct (principals cl sa) as [ps|]; [eauto|]. cbn in X. congruence. }
      destruct Eps as (ps & Eps). rewrite (principals_pods ps x Eps). split; [|tauto]. intros [H|(e & [] & _)]. auto. }
  intros x. rewrite M2, W. unfold principal_match. rewrite (one_of_at m kpos _ Np), none_of_at. tauto.
Qed.

Lemma split_pt : forall r x, ipset r -> (pt_in x (map Block (ipb_split r)) <-> exists y, x = PA y /\ mem y r).
Proof using.
  intros r x Hr. destruct (split_ok r Hr) as (S1 & S2 & S3). destruct x as [k n|y]; cbn [pt_in].
  - split; [intros H; apply in_map_iff in H as (b & E & _); discriminate|intros (y & E & _); discriminate].
  - split.
    + intros (l & H & M). apply in_map_iff in H as (b & E & Hb). injection E as <-. exists y. rewrite <- S3. split; auto. exists b; auto.
    + intros (z & E & M). injection E as <-. rewrite <- S3 in M. destruct M as (b & Hb & M). exists b. split; auto. apply in_map; auto.
Qed.
Lemma split_pok : forall r, ipset r -> pok reg (map Block (ipb_split r)).
Proof using.
  intros r Hr. destruct (split_ok r Hr) as (S1 & _ & _). split.
  - intros l H. apply in_map_iff in H as (b & E & Hb). injection E as <-. apply S1; auto.
  - intros k n H. apply in_map_iff in H as (b & E & _). discriminate.
Qed.
Lemma ip_match_spec : forall m kpos kneg s, (forall k l e, k = kpos \/ k = kneg -> yget m k = YList l -> In e l -> ytrue e = true) -> yget m kpos <> YList [] ->
  parse_ips net (list_at m kpos) (list_at m kneg) = Some s -> pok reg s /\ forall x, pt_in x s <-> ip_match net m kpos kneg x.
Proof using Hnet.
  intros m kpos kneg s B Np E. unfold parse_ips in E. destruct (list_at m kpos) as [l|] eqn:El; [|discriminate].
  match type of E with bind ?e _ = _ => destruct e as [r0|] eqn:E0; [|discriminate] end. cbn [bind] in E.
  match type of E with bind ?e _ = _ => destruct e as [r|] eqn:E1; [|discriminate] end. cbn [bind] in E. injection E as <-.
  assert (Ip : ipset []) by (split; [exact I|intros z Hz; apply mem_nil in Hz; tauto]).
  destruct (ips_or_fold net Hnet l [] r0 E0) as [I0 M0]; auto. { intros e He. apply (B kpos l); auto. apply list_at_given; auto. }
  destruct (ips_sub_fold net Hnet _ r0 r E1) as [I1 M1]; auto.
  { intros e He. destruct (list_at m kneg) as [l'|] eqn:El'; [|destruct He]. apply (B kneg l'); auto. apply list_at_given; auto. }
  split; [apply split_pok; auto|]. intros x. rewrite (split_pt r x I1). unfold ip_match. rewrite (one_of_at m kpos _ Np), none_of_at, El. split.
  - intros (y & -> & Hy). pose proof (proj2 I1 y Hy) as V. destruct (pos_surj y V) as (a & Ha & <-). apply M1 in Hy as [Hy Hn]; auto. apply (M0 a Ha) in Hy as [Hy|Hy]; [apply mem_nil in Hy; tauto|].
    split; [exact V|]. auto.
  - intros (Ha & Hp & Hn). destruct x as [k n|y]; [destruct Ha|]. cbn in Ha. destruct (pos_surj y Ha) as (a & Ha' & <-). exists (pos a). split; auto. apply M1; auto. split; auto. apply M0; auto.
Qed.

(** A key of type list that is not null. *)
Lemma has_given : forall m k fs, forallb (field_ok m) fs = true -> In (Field k Optional (Some TyList) None) fs -> forall ks, none_null m ks = true -> In k ks ->
  (has m k = true <-> given m k) /\ (~ given m k -> yget m k = YNull).
Proof using.
  intros m k fs F Hf ks N Hks. pose proof (field_of m fs _ F Hf) as T. apply typed in T. unfold none_null in N. rewrite forallb_forall in N. specialize (N k Hks).
  unfold has, given in *. unfold yget in *. destruct (assoc_s k m) as [v|] eqn:Ev.
  - cbn [andb] in N. destruct T as [->|T]; [discriminate|]. destruct v; try discriminate. split; [split; eauto|]. intros H. destruct H. eauto.
  - split; [split; [discriminate|intros (l & H); discriminate]|auto].
Qed.

Definition source_benign (m : list (string * yaml)) : Prop :=
  (forall k, In k source_keys -> yget m k <> YList []) /\
  (forall k l e, k = "ipBlocks" \/ k = "notIpBlocks" -> yget m k = YList l -> In e l -> ytrue e = true) /\
  (given m "principals" \/ given m "notPrincipals" -> accounts_ok).
Lemma source_points : pok reg (peers_group (cl_peers cl) true false) /\ forall x, pt_in x (peers_group (cl_peers cl) true false) <-> source_point cl x.
Proof using HC.
  destruct (peers_group_spec reg (cl_peers cl) true false HC) as [P M]. split; auto. intros x. rewrite M. unfold source_point. split; [|tauto].
  intros [[H [H'|H']]|[_ H]]; [discriminate|auto|auto].
Qed.
Theorem source_spec : forall nss y s, namespaces_ok nss -> parse_source cl net sa nss y = Some s ->
  exists m, entry_of "source" y m /\ (source_benign m -> pok reg s /\ forall x, pt_in x s <-> source_matches cl net sa m x).
Proof using Hc Hk HC Hnet.
  intros nss y s N E. unfold parse_source in E. destruct (check_fields y _) as [d|] eqn:Ed; [|discriminate]. cbn [bind] in E.
  destruct (check_fields (yget d "source") source_fields) as [m|] eqn:Em; [|discriminate]. cbn [bind] in E.
  apply check_fields_map in Ed as [-> _]. apply check_fields_map in Em as [Em F]. exists m. split; [exists d; auto|]. intros (B1 & B2 & B3).
  destruct (negb _) eqn:En; [discriminate|]. apply negb_false_iff in En. apply andb_true_iff in En as [Nn _].
  assert (HG : forall k, In k source_keys -> has m k = true <-> given m k).
  { intros k Hks. refine (proj1 (has_given m k source_fields F _ source_keys Nn Hks)).
    apply in_or_app. left. apply in_map_iff. exists k. auto. }
  cbv zeta in E. unfold source_matches.
  assert (HG2 : forall k k', In k source_keys -> In k' source_keys -> (has m k || has m k' = true <-> given m k \/ given m k')).
  { intros k k' H H'. rewrite orb_true_iff, (HG k H), (HG k' H'). tauto. }
  pose proof (HG2 "namespaces" "notNamespaces" ltac:(cbn; tauto) ltac:(cbn; tauto)) as G1.
  pose proof (HG2 "ipBlocks" "notIpBlocks" ltac:(cbn; tauto) ltac:(cbn; tauto)) as G2.
  pose proof (HG2 "principals" "notPrincipals" ltac:(cbn; tauto) ltac:(cbn; tauto)) as G3.
  rewrite <- G3 in B3.
  enough (Q : pok reg s /\ forall x, pt_in x s <-> source_point cl x /\
            (has m "namespaces" || has m "notNamespaces" = true -> ns_match cl sa m "namespaces" "notNamespaces" x) /\
            (has m "principals" || has m "notPrincipals" = true -> principal_match cl sa m "principals" "notPrincipals" x) /\
            (has m "ipBlocks" || has m "notIpBlocks" = true -> ip_match net m "ipBlocks" "notIpBlocks" x)).
  { destruct Q as [Q1 Q2]. split; auto. intros x. rewrite Q2, G1, G2, G3. tauto. }
  assert (K : forall k, In k source_keys -> yget m k <> YList []) by auto.
  destruct source_points as [PS MS].
  destruct (has m "namespaces" || has m "notNamespaces") eqn:H1; destruct (has m "ipBlocks" || has m "notIpBlocks") eqn:H2;
    destruct (has m "principals" || has m "notPrincipals") eqn:H3; cbn [andb orb] in E.
  1,2,5: injection E as <-; (split; [apply pok_nil|]); intros x; (split; [intros H; destruct (nil_pt x H)|]); intros (_ & A1 & A2 & A3); exfalso;
    specialize (A3 eq_refl) as [Ax _]; (assert (Wx : is_workload cl sa x) by (first [apply (A1 eq_refl)|apply (A2 eq_refl)]));
    destruct Wx as (ns & acc & i & -> & _); exact Ax.
  - destruct (parse_principals _ _ _ _) as [p|] eqn:Ep; [|discriminate]. cbn [bind] in E.
    apply principal_match_spec in Ep as [Pp Mp]; [|apply G3; auto|auto|apply K; cbn; tauto|apply K; cbn; tauto].
    destruct (inter_pok _ _ PS Pp) as (u & Eu & Pu & Mu). rewrite Eu in E. cbn [bind] in E.
    destruct (parse_namespaces _ _ _ _) as [q|] eqn:Eq; [|discriminate]. cbn [bind] in E. apply namespaces_spec in Eq as [Pq Mq]; [|auto|apply K; cbn; tauto].
    destruct (inter_pok _ _ Pu Pq) as (v & Ev & Pv & Mv). rewrite Ev in E. injection E as <-. split; auto. intros x. rewrite Mv, Mu, MS, Mp, Mq. clear.
    split; [intros [[A B] C]; split; [auto|split; [auto|split; [auto|discriminate]]]|intros (A & B & C & _); auto].
  - cbn [bind] in E. destruct (parse_namespaces _ _ _ _) as [q|] eqn:Eq; [|discriminate]. cbn [bind] in E. apply namespaces_spec in Eq as [Pq Mq]; [|auto|apply K; cbn; tauto].
    destruct (inter_pok _ _ PS Pq) as (v & Ev & Pv & Mv). rewrite Ev in E. injection E as <-. split; auto. intros x. rewrite Mv, MS, Mq. clear.
    split; [intros [A B]; split; [auto|split; [auto|split; [discriminate|discriminate]]]|intros (A & B & C & _); auto].
  - cbn [bind] in E. destruct (parse_ips _ _ _) as [q|] eqn:Eq; [|discriminate]. cbn [bind] in E. apply ip_match_spec in Eq as [Pq Mq]; [|auto|apply K; cbn; tauto].
    destruct (inter_pok _ _ PS Pq) as (v & Ev & Pv & Mv). rewrite Ev in E. injection E as <-. split; auto. intros x. rewrite Mv, MS, Mq. clear.
    split; [intros [A B]; split; [auto|split; [discriminate|split; [discriminate|auto]]]|intros (A & B & C & D); auto].
  - destruct (parse_principals _ _ _ _) as [p|] eqn:Ep; [|discriminate]. cbn [bind] in E.
    apply principal_match_spec in Ep as [Pp Mp]; [|apply G3; auto|auto|apply K; cbn; tauto|apply K; cbn; tauto].
    destruct (inter_pok _ _ PS Pp) as (u & Eu & Pu & Mu). rewrite Eu in E. cbn [bind] in E. injection E as <-. split; auto. intros x. rewrite Mu, MS, Mp. clear.
    split; [intros [A B]; split; [auto|split; [discriminate|split; [auto|discriminate]]]|intros (A & B & C & _); auto].
  - cbn [bind] in E. injection E as <-. split; auto. intros x. rewrite MS. clear. split; [intros A; split; [auto|split; [discriminate|split; discriminate]]|tauto].
Qed.
End Sources.
