(** * Facts about ClusterModel.v and the selectors of K8sParserModel.v *)
From Coq Require Import ZArith List Bool Arith Lia String.
From Verif Require Import IntervalModel IntervalFacts PortProtoModel PeerModel PeerFacts PeerSetFacts PolicyModel PolicyLaws
                          YamlModel ClusterModel K8sParserModel.
Import ListNotations.
Local Open Scope string_scope.
Local Open Scope list_scope.
Local Open Scope nat_scope.

Lemma smem_In : forall x l, smem x l = true <-> In x l.
Proof.
  intros x l. unfold smem. rewrite existsb_exists. split.
  - intros (y & H & E). apply String.eqb_eq in E. subst. auto.
  - intros H. exists x. split; auto. apply String.eqb_refl.
Qed.
Lemma get_in_spec : forall l k vs, get_in l k vs = true <-> exists v, assoc_s k l = Some v /\ In v vs.
Proof.
  intros l k vs. unfold get_in. destruct (assoc_s k l) as [v|].
  - rewrite smem_In. split; [eauto|]. intros (w & E & H). congruence.
  - split; [discriminate|]. intros (w & E & _). discriminate.
Qed.
Lemma has_key_spec : forall l k, has_key l k = true <-> exists v, assoc_s k l = Some v.
Proof. intros l k. unfold has_key. destruct (assoc_s k l); split; eauto; try discriminate. intros (v & E). discriminate. Qed.

(** ** Peer sets without IP blocks *)
Definition plain (s : peerset) : Prop := forall q, In q s -> is_block q = false.
Lemma plain_without : forall s, plain s -> without_ip_block s = s.
Proof.
  induction s as [|p s IH]; intros H; auto. unfold without_ip_block in *. cbn [filter].
  rewrite (H p (or_introl eq_refl)). cbn [negb]. f_equal. apply IH. intros q Hq. apply H. right; auto.
Qed.
Lemma plain_canonical : forall s, plain s -> ip_block_canonical s = Some [].
Proof.
  intros s. unfold ip_block_canonical. generalize (Some (@nil ivl)). induction s as [|p s IH]; intros a H; auto. cbn [fold_left].
  destruct p as [k n|l]; [|specialize (H _ (or_introl eq_refl)); discriminate].
  apply IH. intros q Hq. apply H. right; auto.
Qed.
Lemma plain_inter : forall s t, plain s -> plain t ->
  exists r, ps_inter s t = Some r /\ plain r /\ forall q, In q r <-> In q s /\ In q t.
Proof.
  intros s t Hs Ht. unfold ps_inter. rewrite (plain_canonical s Hs), (plain_canonical t Ht). cbn [bind].
  rewrite (plain_without s Hs), (plain_without t Ht).
  replace (block_peer_set (ipb_and [] [])) with (@nil peer) by reflexivity. eexists. split; [reflexivity|].
  assert (E : forall q, In q (ps_union (filter (fun p => pmem p t) s) []) <-> In q s /\ In q t).
  { intros q. rewrite ps_union_In, filter_In, pmem_In. cbn [In]. tauto. }
  split; auto. intros q Hq. apply E in Hq as [Hq _]. auto.
Qed.
Lemma plain_ok : forall s, plain s -> ps_ok s.
Proof. intros s H l Hl. apply H in Hl. discriminate. Qed.

Section Cl.
Context (cl : cluster) (Hc : plain (cl_peers cl)).
Lemma select_In : forall f q, In q (select cl f) <-> In q (cl_peers cl) /\ f q = true.
Proof. intros f q. unfold select. rewrite (dns_fold_In f). cbn [In]. tauto. Qed.
Lemma select_plain : forall f, plain (select cl f).
Proof. intros f q H. apply select_In in H as [H _]. auto. Qed.
Lemma all_group_In : forall q, In q (all_group cl) <-> In q (cl_peers cl) /\ is_dns q = false.
Proof.
  intros q. unfold all_group, peers_group. rewrite (group_fold_In (fun p => is_dns p && negb false)). cbn [In].
  rewrite andb_true_r. tauto.
Qed.
Lemma all_group_plain : plain (all_group cl).
Proof. intros q H. apply all_group_In in H as [H _]. auto. Qed.
End Cl.

(** ** What a label selector means (Kubernetes API: labels and selectors)
    [has k v]: the object carries label k with value v. *)
Definition sat_req (has : string -> string -> Prop) (y : yaml) : Prop :=
  exists m key, y = YMap m /\ yget m "key" = YStr key /\
  ((yget m "operator" = YStr "In" /\ exists v, In (YStr v) (ylist (yget m "values")) /\ has key v) \/
   (yget m "operator" = YStr "NotIn" /\ ~ exists v, In (YStr v) (ylist (yget m "values")) /\ has key v) \/
   (yget m "operator" = YStr "Exists" /\ exists v, has key v) \/
   (yget m "operator" = YStr "DoesNotExist" /\ ~ exists v, has key v)).
Definition sat_sel (has : string -> string -> Prop) (y : yaml) : Prop :=
  exists m, y = YMap m /\
  (forall l k v, yget m "matchLabels" = YMap l -> In (k, YStr v) l -> has k v) /\
  (forall r, In r (ylist (yget m "matchExpressions")) -> sat_req has r).
(** The labels of a peer and of its namespace. *)
Definition pod_has (cl : cluster) (p : peer) (k v : string) : Prop :=
  assoc_s k (cl_labels cl p) = Some v \/ assoc_s k (cl_extra cl p) = Some v.
Definition ns_has (cl : cluster) (p : peer) (k v : string) : Prop :=
  exists n, cl_ns cl p = Some n /\ assoc_s k (cl_nslabels cl n) = Some v.
(** A requirement that only asks for the (non-)existence of a key. *)
Definition asks_key (y : yaml) : Prop :=
  exists m, y = YMap m /\ (yget m "operator" = YStr "Exists" \/ yget m "operator" = YStr "DoesNotExist").
(** A requirement or a selector that mentions the empty value. *)
Definition empty_value_req (y : yaml) : Prop := exists m, y = YMap m /\ In (YStr "") (ylist (yget m "values")).
Definition empty_value_sel (y : yaml) : Prop :=
  exists m, y = YMap m /\ ((exists l k, yget m "matchLabels" = YMap l /\ In (k, YStr "") l) \/
                           exists r, In r (ylist (yget m "matchExpressions")) /\ empty_value_req r).
Definition asks_key_sel (y : yaml) : Prop := exists m r, y = YMap m /\ In r (ylist (yget m "matchExpressions")) /\ asks_key r.
(** A selector with no requirement at all. *)
Definition no_requirement (y : yaml) : Prop :=
  exists m, y = YMap m /\ (forall l, yget m "matchLabels" = YMap l -> l = []) /\ ylist (yget m "matchExpressions") = [].

Lemma check_fields_map : forall y fs m, check_fields y fs = Some m -> y = YMap m /\ forallb (field_ok m) fs = true.
Proof.
  intros [| | | | | |m'] fs m E; try discriminate. cbn [check_fields] in E.
  destruct (forallb (field_ok m') fs) eqn:F; [|discriminate]. cbn [andb] in E.
  match type of E with (if ?b then _ else _) = _ => destruct b; [|discriminate] end. injection E as <-. auto.
Qed.
Lemma label_value_spec : forall y s, label_value_ok y = Some s -> y = YStr s.
Proof. intros [| | | |t| |] s E; try discriminate. cbn in E. match type of E with (if ?b then _ else _) = _ => destruct b; [|discriminate] end. congruence. Qed.
Lemma label_values_spec : forall l r, label_values l = Some r -> l = map YStr r.
Proof.
  induction l as [|y l IH]; intros r E; cbn [label_values] in E; [injection E as <-; auto|].
  destruct (label_value_ok y) as [s|] eqn:Es; [|discriminate]. cbn [bind] in E.
  destruct (label_values l) as [r'|]; [|discriminate]. injection E as <-. apply label_value_spec in Es. cbn [map]. f_equal; auto.
Qed.
Lemma in_strs : forall v r, In (YStr v) (map YStr r) <-> In v r.
Proof. intros v r. rewrite in_map_iff. split; [intros (x & E & H); congruence|eauto]. Qed.

Section Req.
Context (cl : cluster) (Hc : plain (cl_peers cl)) (ns : string).

(** The accepted requirements, by operator. *)
Lemma parse_requirement_inv : forall for_ns y s, parse_requirement cl ns for_ns y = Some s ->
  exists m key, y = YMap m /\ yget m "key" = YStr key /\
  ((exists values, yget m "operator" = YStr "In" /\ ylist (yget m "values") = map YStr values /\
      s = if for_ns then ns_pods_with_label cl key values FIn else peers_with_label cl key values FIn None) \/
   (exists values, yget m "operator" = YStr "NotIn" /\ ylist (yget m "values") = map YStr values /\
      s = if for_ns then ns_pods_with_label cl key values FNotIn else peers_with_label cl key values FNotIn None) \/
   (yget m "operator" = YStr "Exists" /\
      s = if for_ns then ns_pods_with_key cl key false else peers_with_key cl (Some ns) key false) \/
   (yget m "operator" = YStr "DoesNotExist" /\
      s = if for_ns then ns_pods_with_key cl key true else peers_with_key cl (Some ns) key true)).
Proof.
  intros for_ns y s E. unfold parse_requirement in E.
  destruct (check_fields y requirement_fields) as [m|] eqn:Ec; [|discriminate]. cbn [bind] in E.
  apply check_fields_map in Ec as [-> _]. exists m.
  destruct (yget m "key") as [| | | |key| |]; try discriminate. exists key. split; auto. split; auto.
  destruct (yget m "operator") as [| | | |op| |]; try discriminate.
  destruct (label_key_ok key); [|discriminate]. cbn [negb] in E.
  destruct (smem op ["In"; "NotIn"]) eqn:S1.
  - destruct (ytrue (yget m "values")); [|discriminate]. cbn [negb] in E.
    destruct (label_values (ylist (yget m "values"))) as [vs|] eqn:Ev; [|discriminate]. cbn [bind] in E.
    apply label_values_spec in Ev. injection E as <-.
    apply smem_In in S1. destruct S1 as [<-|[<-|[]]]; [left|right; left]; exists vs; auto.
  - destruct (smem op ["Exists"; "DoesNotExist"]) eqn:S2; [|discriminate].
    destruct (ytrue (yget m "values")); [discriminate|]. injection E as <-.
    apply smem_In in S2. destruct S2 as [<-|[<-|[]]]; right; right; [left|right]; auto.
Qed.

Lemma pod_requirement : forall y s, parse_requirement cl ns false y = Some s ->
  plain s /\ forall q, In q s <-> In q (cl_peers cl) /\ sat_req (pod_has cl q) y /\ (asks_key y -> cl_ns cl q = Some ns).
Proof.
  intros y s E. apply parse_requirement_inv in E as (m & key & -> & Ek & H).
  assert (NK : forall op, yget m "operator" = YStr op -> op = "In" \/ op = "NotIn" -> ~ asks_key (YMap m)).
  { intros op Eo Ho (m' & E' & H'). injection E' as <-. destruct Ho, H'; subst; congruence. }
  assert (AK : forall op, yget m "operator" = YStr op -> op = "Exists" \/ op = "DoesNotExist" -> asks_key (YMap m)).
  { intros op Eo Ho. exists m. split; auto. destruct Ho; subst; auto. }
  assert (NI : forall q, (match cl_ns cl q with Some n => String.eqb n ns | None => false end) = true <-> cl_ns cl q = Some ns).
  { intros q. destruct (cl_ns cl q) as [n|]; [|split; discriminate]. rewrite String.eqb_eq. split; congruence. }
  assert (SR : forall q op, yget m "operator" = YStr op -> (sat_req (pod_has cl q) (YMap m) <->
     ((op = "In" /\ exists v, In (YStr v) (ylist (yget m "values")) /\ pod_has cl q key v) \/
      (op = "NotIn" /\ ~ exists v, In (YStr v) (ylist (yget m "values")) /\ pod_has cl q key v) \/
      (op = "Exists" /\ exists v, pod_has cl q key v) \/
      (op = "DoesNotExist" /\ ~ exists v, pod_has cl q key v)))).
  { intros q op Eo. unfold sat_req. split.
    - intros (m' & key' & E' & Ek' & H'). injection E' as <-. assert (key' = key) by congruence. subst key'.
      destruct H' as [[X Y]|[[X Y]|[[X Y]|[X Y]]]]; rewrite Eo in X; injection X as ->; tauto.
    - intros H'. exists m, key. split; auto. split; auto.
      destruct H' as [[-> Y]|[[-> Y]|[[-> Y]|[-> Y]]]]; rewrite Eo; tauto. }
  assert (KS : forall q, has_key (cl_labels cl q) key || has_key (cl_extra cl q) key = true <-> exists v, pod_has cl q key v).
  { intros q. rewrite orb_true_iff, !has_key_spec. unfold pod_has. split; [intros [(v & H')|(v & H')]; eauto|intros (v & [H'|H']); eauto]. }
  assert (GS : forall q vs, get_in (cl_labels cl q) key vs || get_in (cl_extra cl q) key vs = true <->
     exists v, In (YStr v) (map YStr vs) /\ pod_has cl q key v).
  { intros q vs. rewrite orb_true_iff, !get_in_spec. unfold pod_has. split.
    - intros [(v & H1 & H2)|(v & H1 & H2)]; exists v; rewrite in_strs; auto.
    - intros (v & H1 & [H2|H2]); apply (proj1 (in_strs _ _)) in H1; eauto. }
  destruct H as [(vs & Eo & Ev & ->)|[(vs & Eo & Ev & ->)|[(Eo & ->)|(Eo & ->)]]];
    (split; [apply select_plain; auto|]); intros q; rewrite (SR q _ Eo).
  - unfold peers_with_label. rewrite select_In. cbn [ns_is andb]. rewrite GS, Ev.
    pose proof (NK _ Eo (or_introl eq_refl)). intuition (try discriminate; try tauto).
  - unfold peers_with_label. rewrite select_In. cbn [ns_is andb]. rewrite <- negb_orb, negb_true_iff, <- not_true_iff_false, GS, Ev.
    pose proof (NK _ Eo (or_intror eq_refl)). intuition (try discriminate; try tauto).
  - unfold peers_with_key. rewrite select_In. cbn [ns_is]. rewrite andb_true_iff, NI, xorb_false_r, KS.
    pose proof (AK _ Eo (or_introl eq_refl)). intuition (try discriminate; try tauto).
  - unfold peers_with_key. rewrite select_In. cbn [ns_is]. rewrite andb_true_iff, NI, xorb_true_r, negb_true_iff, <- not_true_iff_false, KS.
    pose proof (AK _ Eo (or_intror eq_refl)). intuition (try discriminate; try tauto).
Qed.

Lemma ns_requirement : forall y s, parse_requirement cl ns true y = Some s ->
  plain s /\ (forall q, In q s -> In q (cl_peers cl) /\ cl_ns cl q <> None) /\
  (~ empty_value_req y -> forall q, cl_ns cl q <> None -> (In q s <-> In q (cl_peers cl) /\ sat_req (ns_has cl q) y)).
Proof.
  intros y s E. apply parse_requirement_inv in E as (m & key & -> & Ek & H).
  assert (SR : forall q op, yget m "operator" = YStr op -> (sat_req (ns_has cl q) (YMap m) <->
     ((op = "In" /\ exists v, In (YStr v) (ylist (yget m "values")) /\ ns_has cl q key v) \/
      (op = "NotIn" /\ ~ exists v, In (YStr v) (ylist (yget m "values")) /\ ns_has cl q key v) \/
      (op = "Exists" /\ exists v, ns_has cl q key v) \/
      (op = "DoesNotExist" /\ ~ exists v, ns_has cl q key v)))).
  { intros q op Eo. unfold sat_req. split.
    - intros (m' & key' & E' & Ek' & H'). injection E' as <-. assert (key' = key) by congruence. subst key'.
      destruct H' as [[X Y]|[[X Y]|[[X Y]|[X Y]]]]; rewrite Eo in X; injection X as ->; tauto.
    - intros H'. exists m, key. split; auto. split; auto.
      destruct H' as [[-> Y]|[[-> Y]|[[-> Y]|[-> Y]]]]; rewrite Eo; tauto. }
  assert (NS : forall f q, In q (select cl (fun p => match cl_ns cl p with None => false | Some n => f n end)) ->
                 In q (cl_peers cl) /\ cl_ns cl q <> None).
  { intros f q Hq. apply select_In in Hq as [Hq F]. split; auto. destruct (cl_ns cl q); [congruence|discriminate]. }
  assert (KS : forall q n, cl_ns cl q = Some n -> (has_key (cl_nslabels cl n) key = true <-> exists v, ns_has cl q key v)).
  { intros q n En. rewrite has_key_spec. unfold ns_has. split.
    - intros (v & H'). eauto.
    - intros (v & n' & E' & H'). assert (n' = n) by congruence. subst. eauto. }
  assert (GS : forall q n vs, ~ empty_value_req (YMap m) -> ylist (yget m "values") = map YStr vs -> cl_ns cl q = Some n ->
     (smem (get_or_empty (cl_nslabels cl n) key) vs = true <-> exists v, In (YStr v) (map YStr vs) /\ ns_has cl q key v)).
  { intros q n vs Hne Ev En. rewrite smem_In. unfold get_or_empty, ns_has. split.
    - intros H'. destruct (assoc_s key (cl_nslabels cl n)) as [v|] eqn:Ea.
      + exists v. rewrite in_strs. eauto.
      + exfalso. apply Hne. exists m. split; auto. rewrite Ev. apply in_strs. auto.
    - intros (v & H1 & n' & E' & H2). assert (n' = n) by congruence. subst. rewrite H2. apply in_strs. auto. }
  destruct H as [(vs & Eo & Ev & ->)|[(vs & Eo & Ev & ->)|[(Eo & ->)|(Eo & ->)]]];
    (split; [apply select_plain; auto|]); (split; [apply NS|]); intros Hne q Hq; rewrite (SR q _ Eo).
  - unfold ns_pods_with_label. rewrite select_In. destruct (cl_ns cl q) as [n|] eqn:En; [|congruence].
    rewrite (GS q n vs Hne Ev En), Ev. intuition (try discriminate; try tauto).
  - unfold ns_pods_with_label. rewrite select_In. destruct (cl_ns cl q) as [n|] eqn:En; [|congruence].
    rewrite negb_true_iff, <- not_true_iff_false, (GS q n vs Hne Ev En), Ev. intuition (try discriminate; try tauto).
  - unfold ns_pods_with_key. rewrite select_In. destruct (cl_ns cl q) as [n|] eqn:En; [|congruence].
    rewrite xorb_false_r, (KS q n En). intuition (try discriminate; try tauto).
  - unfold ns_pods_with_key. rewrite select_In. destruct (cl_ns cl q) as [n|] eqn:En; [|congruence].
    rewrite xorb_true_r, negb_true_iff, <- not_true_iff_false, (KS q n En). intuition (try discriminate; try tauto).
Qed.

(** ** Folding requirements *)
Lemma meet_fold : forall {X} (f : X -> option peerset) l acc s,
  fold_left (fun a x => meet a (f x)) l acc = Some s ->
  (exists r, acc = Some r) /\ forall x, In x l -> exists t, f x = Some t.
Proof.
  intros X f l. induction l as [|x l IH]; intros acc s E; cbn [fold_left] in E.
  - split; [eauto|intros x []].
  - apply IH in E as [(r & Er) H]. unfold meet in Er. destruct acc as [a|]; [|discriminate]. cbn [bind] in Er.
    destruct (f x) as [t|] eqn:Ef; [|discriminate]. split; [eauto|]. intros z [<-|Hz]; eauto.
Qed.
Lemma meet_fold_In : forall {X} (f : X -> option peerset) l r s,
  plain r -> (forall x t, In x l -> f x = Some t -> plain t) ->
  fold_left (fun a x => meet a (f x)) l (Some r) = Some s ->
  plain s /\ forall q, In q s <-> In q r /\ forall x t, In x l -> f x = Some t -> In q t.
Proof.
  intros X f l. induction l as [|x l IH]; intros r s Pr Pl E; cbn [fold_left] in E.
  - injection E as <-. split; auto. intros q. split; [intros H; split; auto; intros x t []|tauto].
  - unfold meet at 2 in E. cbn [bind] in E. destruct (f x) as [t|] eqn:Ef.
    2:{ exfalso. apply meet_fold in E as [(r' & E') _]. discriminate. }
    cbn [bind] in E. destruct (plain_inter r t Pr (Pl x t (or_introl eq_refl) Ef)) as (r' & E' & P' & M'). rewrite E' in E.
    destruct (IH r' s P') as [Ps Ms]; [intros; eapply Pl; [right; eauto|eauto]|exact E|]. split; auto.
    intros q. rewrite Ms, M'. split.
    + intros [[H1 H2] H3]. split; auto. intros z u [<-|Hz] Hu; [congruence|eauto].
    + intros [H1 H2]. split; [split; auto|]; [apply (H2 x t (or_introl eq_refl) Ef)|]. intros z u Hz Hu. apply (H2 z u (or_intror Hz) Hu).
Qed.

Definition label_set (for_ns : bool) (kv : string * yaml) : option peerset :=
  if label_key_ok (fst kv) then
    bind (label_value_ok (snd kv)) (fun v =>
      Some (if for_ns then ns_pods_with_label cl (fst kv) [v] FIn else peers_with_label cl (fst kv) [v] FIn None))
  else None.

Lemma label_set_inv : forall for_ns kv t, label_set for_ns kv = Some t -> exists k v, kv = (k, YStr v) /\
  t = if for_ns then ns_pods_with_label cl k [v] FIn else peers_with_label cl k [v] FIn None.
Proof.
  intros for_ns [k y] t E. unfold label_set in E. cbn [fst snd] in E. destruct (label_key_ok k); [|discriminate].
  destruct (label_value_ok y) as [v|] eqn:Ev; [|discriminate]. cbn [bind] in E. injection E as <-.
  apply label_value_spec in Ev. subst. eauto.
Qed.
Lemma label_set_plain : forall for_ns kv t, label_set for_ns kv = Some t -> plain t.
Proof. intros for_ns kv t E. apply label_set_inv in E as (k & v & _ & ->). destruct for_ns; apply select_plain; auto. Qed.
Lemma requirement_plain : forall for_ns y t, parse_requirement cl ns for_ns y = Some t -> plain t.
Proof. intros [|] y t E; [apply ns_requirement in E|apply pod_requirement in E]; tauto. Qed.

(** A selector that is accepted. *)
Lemma selector_inv : forall for_ns y s, parse_label_selector cl ns for_ns y = Some s -> y <> YNull ->
  (ytrue y = false /\ s = all_group cl) \/
  (exists m labels, y = YMap m /\ ytrue y = true /\ (labels = match yget m "matchLabels" with YMap l => l | _ => [] end) /\
   (forall kv, In kv labels -> exists t, label_set for_ns kv = Some t) /\
   (forall r, In r (ylist (yget m "matchExpressions")) -> exists t, parse_requirement cl ns for_ns r = Some t) /\
   plain s /\
   forall q, In q s <-> In q (all_group cl) /\ (forall kv t, In kv labels -> label_set for_ns kv = Some t -> In q t) /\
     (forall r t, In r (ylist (yget m "matchExpressions")) -> parse_requirement cl ns for_ns r = Some t -> In q t)).
Proof.
  intros for_ns y s E Hn. destruct (ytrue y) eqn:Et.
  - right. assert (E' : bind (check_fields y [Field "matchLabels" Optional (Some TyDict) None;
                               Field "matchExpressions" Optional (Some TyList) None]) (fun m =>
      let labels := match yget m "matchLabels" with YMap l => l | _ => [] end in
      let res := fold_left (fun acc kv => meet acc (label_set for_ns kv)) labels (Some (all_group cl)) in
      fold_left (fun acc r => meet acc (parse_requirement cl ns for_ns r)) (ylist (yget m "matchExpressions")) res) = Some s).
    { unfold parse_label_selector in E. destruct y; try congruence; rewrite Et in E; exact E. }
    clear E. destruct (check_fields y _) as [m|] eqn:Ec; [|discriminate]. cbn [bind] in E'. cbv zeta in E'.
    apply check_fields_map in Ec as [-> _]. exists m, (match yget m "matchLabels" with YMap l => l | _ => [] end).
    set (labels := match yget m "matchLabels" with YMap l => l | _ => [] end) in *.
    destruct (meet_fold _ _ _ _ E') as [(r & Er) H2]. destruct (meet_fold _ _ _ _ Er) as [_ H1]. rewrite Er in E'.
    destruct (meet_fold_In _ _ _ _ (all_group_plain cl Hc) (fun x t _ Hx => label_set_plain for_ns x t Hx) Er) as [P1 M1].
    destruct (meet_fold_In _ _ _ _ P1 (fun x t _ Hx => requirement_plain for_ns x t Hx) E') as [P2 M2].
    repeat split; auto.
    + apply M2 in H as [H _]. apply M1 in H. tauto.
    + apply M2 in H as [H _]. apply M1 in H. tauto.
    + apply M2 in H. tauto.
    + intros (A1 & A2 & A3). apply M2. split; auto. apply M1. auto.
  - left. split; auto. unfold parse_label_selector in E. destruct y; try congruence; rewrite Et in E; injection E as <-; auto.
Qed.

(** podSelector: right for the peers of the policy's own namespace, and for all peers if no requirement asks for the
    existence of a key. *)
Lemma pod_selector : forall y s, has_type TyDict y = true -> parse_label_selector cl ns false y = Some s ->
  plain s /\ forall q, In q s <-> In q (cl_peers cl) /\ is_dns q = false /\ sat_sel (pod_has cl q) y /\
                                 (asks_key_sel y -> cl_ns cl q = Some ns).
Proof.
  intros y s Ty E. assert (Hn : y <> YNull) by (intros ->; discriminate).
  apply selector_inv in E as [[Et ->]|(m & labels & -> & Et & El & H1 & H2 & Ps & M)]; auto.
  - split; [apply all_group_plain; auto|]. intros q. rewrite all_group_In.
    destruct y as [| | | | | |[|]]; try discriminate. split; [|tauto]. intros [A B]. split; auto. split; auto. split.
    + exists []. repeat split; [discriminate|]. intros r [].
    + intros (m & r & Em & Hr & _). injection Em as <-. destruct Hr.
  - split; auto. intros q. rewrite M, all_group_In. split.
    + intros ((A1 & A2) & A3 & A4). split; auto. split; auto. split.
      * exists m. split; auto. split.
        -- intros l k v Hl Hkv. rewrite Hl in El. subst labels. destruct (H1 _ Hkv) as [t Et']. pose proof (A3 _ _ Hkv Et') as Hq.
           apply label_set_inv in Et' as (k' & v' & Ekv & ->). injection Ekv as <- <-.
           unfold peers_with_label in Hq. apply select_In in Hq as [_ Hq]. cbn [ns_is andb] in Hq.
           apply orb_true_iff in Hq. rewrite !get_in_spec in Hq. unfold pod_has.
           destruct Hq as [(w & Hw & [<-|[]])|(w & Hw & [<-|[]])]; auto.
        -- intros r Hr. destruct (H2 r Hr) as [t Et']. pose proof (A4 r t Hr Et') as Hq. apply pod_requirement in Et' as [_ Et'].
           apply Et' in Hq. tauto.
      * intros (m' & r & Em & Hr & Hk). injection Em as <-. destruct (H2 r Hr) as [t Et']. pose proof (A4 r t Hr Et') as Hq.
        apply pod_requirement in Et' as [_ Et']. apply Et' in Hq. tauto.
    + intros (A1 & A2 & (m' & Em & B1 & B2) & A4). injection Em as <-. split; auto. split.
      * intros [k y] t Hkv Et'. apply label_set_inv in Et' as (k' & v' & Ekv & ->). injection Ekv as <- ->.
        unfold peers_with_label. apply select_In. split; auto. cbn [ns_is andb]. apply orb_true_iff. rewrite !get_in_spec.
        assert (Hl : yget m "matchLabels" = YMap labels).
        { rewrite El in Hkv |- *. destruct (yget m "matchLabels"); try destruct Hkv. reflexivity. }
        destruct (B1 labels k v' Hl Hkv) as [H|H]; [left|right]; exists v'; simpl; auto.
      * intros r t Hr Et'. apply pod_requirement in Et' as [_ Et']. apply Et'. split; auto. split; auto.
        intros Hk. apply A4. exists m, r. auto.
Qed.

(** namespaceSelector *)
Lemma ns_selector : forall y s, has_type TyDict y = true -> parse_label_selector cl ns true y = Some s ->
  plain s /\ (forall q, In q s -> In q (cl_peers cl) /\ is_dns q = false) /\
  (~ no_requirement y -> forall q, In q s -> cl_ns cl q <> None) /\
  (~ empty_value_sel y -> forall q, cl_ns cl q <> None ->
     (In q s <-> In q (cl_peers cl) /\ is_dns q = false /\ sat_sel (ns_has cl q) y)).
Proof.
  intros y s Ty E. assert (Hn : y <> YNull) by (intros ->; discriminate).
  apply selector_inv in E as [[Et ->]|(m & labels & -> & Et & El & H1 & H2 & Ps & M)]; auto.
  - split; [apply all_group_plain; auto|]. destruct y as [| | | | | |[|]]; try discriminate.
    split; [intros q; apply all_group_In|]. split.
    + intros H. exfalso. apply H. exists []. repeat split. discriminate.
    + intros _ q Hq. rewrite all_group_In. split; [|tauto]. intros [A B]. split; auto. split; auto.
      exists []. repeat split; [discriminate|]. intros r [].
  - split; auto. split; [intros q Hq; apply M in Hq as [Hq _]; apply all_group_In; auto|].
    assert (NSl : forall kv t, label_set true kv = Some t -> forall q, In q t -> cl_ns cl q <> None).
    { intros kv t Et' q Hq. apply label_set_inv in Et' as (k & v & _ & ->). unfold ns_pods_with_label in Hq.
      apply select_In in Hq as [_ Hq]. destruct (cl_ns cl q); [congruence|discriminate]. }
    split.
    + intros Hnr q Hq. apply M in Hq as (_ & A3 & A4). destruct labels as [|kv labels'].
      * destruct (ylist (yget m "matchExpressions")) as [|r rs] eqn:Er.
        -- exfalso. apply Hnr. exists m. split; auto. split; auto. intros l Hl. rewrite Hl in El. auto.
        -- destruct (H2 r (or_introl eq_refl)) as [t Et']. pose proof (A4 r t (or_introl eq_refl) Et') as Hq.
           apply ns_requirement in Et' as (_ & X & _). apply X in Hq. tauto.
      * destruct (H1 kv (or_introl eq_refl)) as [t Et']. apply (NSl kv t Et' q). apply (A3 kv t); auto. left; auto.
    + intros Hne q Hq. rewrite M, all_group_In.
      assert (Lab : forall k v, In (k, YStr v) labels ->
        (In q (ns_pods_with_label cl k [v] FIn) <-> In q (cl_peers cl) /\ ns_has cl q k v)).
      { intros k v Hkv. unfold ns_pods_with_label. rewrite select_In. destruct (cl_ns cl q) as [n|] eqn:En; [|congruence].
        rewrite smem_In. unfold get_or_empty, ns_has.
        assert (Hv : v <> "").
        { intros ->. apply Hne. exists m. split; auto. left. exists labels, k. split; auto.
          rewrite El in Hkv |- *. destruct (yget m "matchLabels"); try destruct Hkv. reflexivity. }
        cbn [In]. split.
        - intros [A [B|[]]]. split; auto. exists n. split; auto. destruct (assoc_s k (cl_nslabels cl n)); congruence.
        - intros [A (n' & E' & B)]. assert (n' = n) by congruence. subst. rewrite B. auto. }
      assert (Rq : forall r t, In r (ylist (yget m "matchExpressions")) -> parse_requirement cl ns true r = Some t ->
        (In q t <-> In q (cl_peers cl) /\ sat_req (ns_has cl q) r)).
      { intros r t Hr Et'. apply ns_requirement in Et' as (_ & _ & X). apply X; auto. intros Hr'. apply Hne.
        exists m. split; auto. right. exists r. auto. }
      split.
      * intros ((A1 & A2) & A3 & A4). split; auto. split; auto. exists m. split; auto. split.
        -- intros l k v Hl Hkv. rewrite Hl in El. subst labels. destruct (H1 _ Hkv) as [t Et']. pose proof (A3 _ _ Hkv Et') as Hq'.
           apply label_set_inv in Et' as (k' & v' & Ekv & ->). injection Ekv as <- <-. apply (Lab k v Hkv). auto.
        -- intros r Hr. destruct (H2 r Hr) as [t Et']. apply (Rq r t Hr Et'). apply (A4 r t Hr Et').
      * intros (A1 & A2 & (m' & Em & B1 & B2)). injection Em as <-. split; auto. split.
        -- intros [k y] t Hkv Et'. apply label_set_inv in Et' as (k' & v' & Ekv & ->). injection Ekv as <- ->.
           apply (Lab k v' Hkv). split; auto. apply (B1 labels); auto.
           rewrite El in Hkv |- *. destruct (yget m "matchLabels"); try destruct Hkv. reflexivity.
        -- intros r t Hr Et'. apply (Rq r t Hr Et'). auto.
Qed.
End Req.
