(** * C19: label selectors of Kubernetes network policies.

    The meaning of selectors ([sat_req], [sat_sel]) and which object carries which label ([pod_has], [ns_has]) are in
    SelectorFacts.v; they do not refer to the parser.  A pod carries its own labels and the extra labels the tool adds
    to it. *)
From Coq Require Import ZArith List Bool Arith Lia String.
From Verif Require Import IntervalModel IntervalFacts PortProtoModel PeerModel PeerFacts PeerSetFacts PolicyModel PolicyLaws
                          YamlModel ClusterModel K8sParserModel SelectorFacts StdDims.
Import ListNotations.
Local Open Scope string_scope.
Local Open Scope list_scope.
Local Open Scope nat_scope.

(** The peers of a cluster are pods, host endpoints and DNS entries; exactly the pods live in a namespace. *)
Definition cluster_ok (cl : cluster) : Prop :=
  forall q, In q (cl_peers cl) -> exists k n, q = Named k n /\ (cl_ns cl q <> None <-> k = 0).
Lemma cluster_plain : forall cl, cluster_ok cl -> plain (cl_peers cl).
Proof. intros cl H q Hq. destruct (H q Hq) as (k & n & -> & _). reflexivity. Qed.
Lemma in_ns_not_dns : forall cl q ns, cluster_ok cl -> In q (cl_peers cl) -> cl_ns cl q = Some ns -> is_dns q = false.
Proof. intros cl q ns H Hq E. destruct (H q Hq) as (k & n & -> & [A _]). rewrite A by congruence. reflexivity. Qed.

(** ** One requirement *)
(** For pods: all pods if the requirement is about values; for Exists and DoesNotExist, the pods of the policy's own
    namespace. *)
Theorem C19_pod_requirement : forall cl ns y s, cluster_ok cl -> parse_requirement cl ns false y = Some s ->
  forall q, In q s <-> In q (cl_peers cl) /\ sat_req (pod_has cl q) y /\ (asks_key y -> cl_ns cl q = Some ns).
Proof. intros cl ns y s H E. apply (pod_requirement cl (cluster_plain cl H) ns y s E). Qed.
(** For namespaces: the pods of the namespaces that satisfy the requirement, if the empty value is not mentioned. *)
Theorem C19_namespace_requirement : forall cl ns y s, cluster_ok cl -> parse_requirement cl ns true y = Some s -> ~ empty_value_req y ->
  forall q, In q s <-> In q (cl_peers cl) /\ cl_ns cl q <> None /\ sat_req (ns_has cl q) y.
Proof.
  intros cl ns y s H E Hne q. destruct (ns_requirement cl (cluster_plain cl H) ns y s E) as (_ & A & B). split.
  - intros Hq. destruct (A q Hq) as [A1 A2]. split; auto. split; auto. apply (B Hne q A2). auto.
  - intros (A1 & A2 & A3). apply (B Hne q A2). auto.
Qed.

(** ** Selectors *)
(** The pods a policy of namespace [ns] applies to (K8sPolicyYamlParser.py:416-418): the pods of the namespace that
    satisfy the selector. *)
Theorem C19_policy_pod_selector : forall cl ns y s, cluster_ok cl -> has_type TyDict y = true ->
  meet (parse_label_selector cl ns false y) (Some (namespace_pods cl (Some ns))) = Some s ->
  plain s /\ forall q, In q s <-> In q (cl_peers cl) /\ cl_ns cl q = Some ns /\ sat_sel (pod_has cl q) y.
Proof.
  intros cl ns y s H Ty E. pose proof (cluster_plain cl H) as Hc. unfold meet in E.
  destruct (parse_label_selector cl ns false y) as [t|] eqn:Et; [|discriminate]. cbn [bind] in E.
  destruct (pod_selector cl Hc ns y t Ty Et) as [Pt Mt].
  destruct (plain_inter t (namespace_pods cl (Some ns)) Pt (select_plain cl Hc _)) as (r & Er & Pr & Mr).
  rewrite Er in E. injection E as <-. split; auto. intros q. rewrite Mr, Mt. unfold namespace_pods. rewrite select_In. cbn [ns_is].
  assert (X : (match cl_ns cl q with Some m => String.eqb m ns | None => false end) = true <-> cl_ns cl q = Some ns).
  { destruct (cl_ns cl q) as [m|]; [|split; discriminate]. rewrite String.eqb_eq. split; congruence. }
  rewrite X. pose proof (in_ns_not_dns cl q ns H). tauto.
Qed.
(** A podSelector of a rule without namespaceSelector: the same pods. *)
Theorem C19_rule_pod_selector : forall cl net ns y s, cluster_ok cl ->
  parse_peer cl net ns (YMap [("podSelector", y)]) = Some s -> y <> YNull ->
  forall q, In q s <-> In q (cl_peers cl) /\ cl_ns cl q = Some ns /\ sat_sel (pod_has cl q) y.
Proof.
  intros cl net ns y s H E Hn. unfold parse_peer in E. destruct (check_fields _ _) as [m|] eqn:Ec; [|discriminate].
  pose proof (check_fields_map _ _ _ Ec) as [Em F]. injection Em as <-. cbn [bind] in E.
  assert (Ty : has_type TyDict y = true). { destruct y; try discriminate; try congruence; reflexivity. }
  change (yget [("podSelector", y)] "podSelector") with y in E. change (yget [("podSelector", y)] "namespaceSelector") with YNull in E.
  change (yget [("podSelector", y)] "ipBlock") with YNull in E. cbn [is_null andb negb] in E.
  assert (En : is_null y = false) by (destruct y; try reflexivity; congruence). rewrite En in E. cbn [andb bind] in E.
  apply (C19_policy_pod_selector cl ns y s H Ty). exact E.
Qed.
(** A namespaceSelector with a requirement, not mentioning the empty value: the pods of the namespaces that satisfy it. *)
Theorem C19_namespace_selector : forall cl ns y s, cluster_ok cl -> has_type TyDict y = true ->
  parse_label_selector cl ns true y = Some s -> ~ no_requirement y -> ~ empty_value_sel y ->
  forall q, In q s <-> In q (cl_peers cl) /\ cl_ns cl q <> None /\ sat_sel (ns_has cl q) y.
Proof.
  intros cl ns y s H Ty E Hr He q. destruct (ns_selector cl (cluster_plain cl H) ns y s Ty E) as (_ & A & B & C). split.
  - intros Hq. destruct (A q Hq) as [A1 A2]. pose proof (B Hr q Hq) as A3. split; auto. split; auto. apply (C He q A3). auto.
  - intros (A1 & A2 & A3). apply (C He q A2). split; auto. split; auto. destruct (cl_ns cl q) as [n|] eqn:En; [|congruence].
    apply (in_ns_not_dns cl q n); auto.
Qed.
(** The empty namespaceSelector: every peer of the cluster except DNS entries. *)
Theorem C19_every_namespace : forall cl ns y s, cluster_ok cl -> has_type TyDict y = true -> parse_label_selector cl ns true y = Some s ->
  no_requirement y -> forall q, cl_ns cl q <> None -> (In q s <-> In q (cl_peers cl)).
Proof.
  intros cl ns y s H Ty E (m & -> & H1 & H2) q Hq. destruct (ns_selector cl (cluster_plain cl H) ns _ s Ty E) as (_ & A & _ & C).
  assert (S : sat_sel (ns_has cl q) (YMap m)).
  { exists m. split; auto. split; [intros l k v Hl Hk; rewrite (H1 l Hl) in Hk; destruct Hk|]. rewrite H2. intros r []. }
  assert (He : ~ empty_value_sel (YMap m)).
  { intros (m' & Em & [(l & k & Hl & Hk)|(r & Hr & _)]); injection Em as <-; [rewrite (H1 l Hl) in Hk; destruct Hk|rewrite H2 in Hr; destruct Hr]. }
  rewrite (C He q Hq). split; [tauto|]. intros Hp. split; auto. split; auto. destruct (cl_ns cl q) as [n|] eqn:En; [|congruence].
  apply (in_ns_not_dns cl q n); auto.
Qed.
(** namespaceSelector and podSelector together: the pods that satisfy the podSelector in the namespaces that satisfy the
    namespaceSelector, if the podSelector does not use Exists or DoesNotExist. *)
Theorem C19_both_selectors : forall cl net ns yn yp s, cluster_ok cl -> yn <> YNull -> yp <> YNull ->
  parse_peer cl net ns (YMap [("namespaceSelector", yn); ("podSelector", yp)]) = Some s ->
  ~ asks_key_sel yp -> ~ empty_value_sel yn ->
  forall q, cl_ns cl q <> None -> (In q s <-> In q (cl_peers cl) /\ sat_sel (ns_has cl q) yn /\ sat_sel (pod_has cl q) yp).
Proof.
  intros cl net ns yn yp s H Nn Np E Hk He q Hq. pose proof (cluster_plain cl H) as Hc.
  unfold parse_peer in E. destruct (check_fields _ _) as [m|] eqn:Ec; [|discriminate].
  pose proof (check_fields_map _ _ _ Ec) as [Em F]. injection Em as <-. cbn [bind] in E.
  change (yget [("namespaceSelector", yn); ("podSelector", yp)] "podSelector") with yp in E.
  change (yget [("namespaceSelector", yn); ("podSelector", yp)] "namespaceSelector") with yn in E.
  change (yget [("namespaceSelector", yn); ("podSelector", yp)] "ipBlock") with YNull in E.
  assert (Tp : has_type TyDict yp = true). { destruct yp; try discriminate; try congruence; reflexivity. }
  assert (Tn : has_type TyDict yn = true). { destruct yn; try (destruct yp; discriminate); try congruence; reflexivity. }
  assert (Ep : is_null yp = false) by (destruct yp; try reflexivity; congruence).
  assert (En : is_null yn = false) by (destruct yn; try reflexivity; congruence). rewrite Ep, En in E. cbn [is_null andb negb] in E.
  destruct (parse_label_selector cl ns true yn) as [sn|] eqn:Esn; [|discriminate]. cbn [bind] in E.
  destruct (parse_label_selector cl ns false yp) as [sp|] eqn:Esp; [|discriminate]. cbn [bind] in E.
  destruct (ns_selector cl Hc ns yn sn Tn Esn) as (Pn & _ & _ & Mn). destruct (pod_selector cl Hc ns yp sp Tp Esp) as [Pp Mp].
  destruct (plain_inter sp sn Pp Pn) as (r & Er & _ & Mr). rewrite Er in E. injection E as <-.
  rewrite Mr, Mp, (Mn He q Hq). destruct (cl_ns cl q) as [n|] eqn:En'; [|congruence]. pose proof (in_ns_not_dns cl q n H). tauto.
Qed.

(** ** Which selectors are accepted *)
(** A selector object as the Kubernetes API defines it, with legal label syntax. *)
Definition legal_requirement (r : yaml) : Prop :=
  (exists key vs op, r = YMap [("key", YStr key); ("operator", YStr op); ("values", YList (map YStr vs))] /\ label_key_ok key = true /\
     (op = "In" \/ op = "NotIn") /\ vs <> [] /\ forall v, In v vs -> label_value_ok (YStr v) = Some v) \/
  (exists key op, r = YMap [("key", YStr key); ("operator", YStr op)] /\ label_key_ok key = true /\ (op = "Exists" \/ op = "DoesNotExist")).
Definition legal_selector (y : yaml) : Prop :=
  exists labels reqs, y = YMap [("matchLabels", YMap labels); ("matchExpressions", YList reqs)] /\
    (forall k v, In (k, v) labels -> label_key_ok k = true /\ exists s, v = YStr s /\ label_value_ok v = Some s) /\
    (forall r, In r reqs -> legal_requirement r).
Lemma label_values_ok : forall vs, (forall v, In v vs -> label_value_ok (YStr v) = Some v) -> label_values (map YStr vs) = Some vs.
Proof.
  induction vs as [|v vs IH]; intros H; auto. cbn [map label_values]. rewrite (H v) by (left; auto). cbn [bind].
  rewrite IH by (intros; apply H; right; auto). reflexivity.
Qed.
Theorem C19_legal_selectors_accepted : forall cl ns for_ns y, cluster_ok cl -> legal_selector y ->
  exists s, parse_label_selector cl ns for_ns y = Some s.
Proof.
  intros cl ns for_ns y H (labels & reqs & -> & Hl & Hr). pose proof (cluster_plain cl H) as Hc.
  assert (R : forall r, In r reqs -> exists t, parse_requirement cl ns for_ns r = Some t).
  { intros r Hin. destruct (Hr r Hin) as [(key & vs & op & -> & Kk & Ho & Nv & Hv)|(key & op & -> & Kk & Ho)].
    - unfold parse_requirement. 
      assert (Ec : check_fields (YMap [("key", YStr key); ("operator", YStr op); ("values", YList (map YStr vs))]) requirement_fields
              = Some [("key", YStr key); ("operator", YStr op); ("values", YList (map YStr vs))]).
      { destruct Ho; subst op; cbn; destruct vs; reflexivity. }
      rewrite Ec. cbn [bind]. change (yget [("key", YStr key); ("operator", YStr op); ("values", YList (map YStr vs))] "key") with (YStr key).
      change (yget [("key", YStr key); ("operator", YStr op); ("values", YList (map YStr vs))] "operator") with (YStr op).
      change (yget [("key", YStr key); ("operator", YStr op); ("values", YList (map YStr vs))] "values") with (YList (map YStr vs)).
      cbv beta iota. rewrite Kk. cbn [negb]. assert (S : smem op ["In"; "NotIn"] = true) by (apply smem_In; destruct Ho; subst; cbn; auto). rewrite S.
      assert (T : ytrue (YList (map YStr vs)) = true) by (destruct vs; [congruence|reflexivity]). rewrite T. cbn [negb ylist].
      rewrite (label_values_ok vs Hv). cbn [bind]. eauto.
    - unfold parse_requirement.
      assert (Ec : check_fields (YMap [("key", YStr key); ("operator", YStr op)]) requirement_fields = Some [("key", YStr key); ("operator", YStr op)])
        by (destruct Ho; subst op; reflexivity).
      rewrite Ec. cbn [bind]. change (yget [("key", YStr key); ("operator", YStr op)] "key") with (YStr key).
      change (yget [("key", YStr key); ("operator", YStr op)] "operator") with (YStr op).
      change (yget [("key", YStr key); ("operator", YStr op)] "values") with YNull.
      cbv beta iota. rewrite Kk. cbn [negb]. assert (S1 : smem op ["In"; "NotIn"] = false) by (destruct Ho; subst; reflexivity).
      assert (S2 : smem op ["Exists"; "DoesNotExist"] = true) by (apply smem_In; destruct Ho; subst; cbn; auto). rewrite S1, S2. cbn [ytrue]. eauto. }
  assert (Lb : forall kv, In kv labels -> exists t, label_set cl for_ns kv = Some t).
  { intros [k v] Hin. destruct (Hl k v Hin) as (Kk & s & -> & Ev). unfold label_set. cbn [fst snd]. rewrite Kk, Ev. cbn [bind]. eauto. }
  assert (MF : forall X (f : X -> option peerset) l r, plain r -> (forall x, In x l -> exists t, f x = Some t) ->
     (forall x t, f x = Some t -> plain t) -> exists s, fold_left (fun a x => meet a (f x)) l (Some r) = Some s /\ plain s).
  { intros X f l. induction l as [|x l IH]; intros r Pr Hf Pf; cbn [fold_left]; [eauto|].
    destruct (Hf x (or_introl eq_refl)) as [t Et]. unfold meet at 2. cbn [bind]. rewrite Et. cbn [bind].
    destruct (plain_inter r t Pr (Pf x t Et)) as (r' & Er & Pr' & _). rewrite Er. apply IH; auto. intros z Hz. apply Hf. right; auto. }
  destruct (MF _ (label_set cl for_ns) labels (all_group cl) (all_group_plain cl Hc) Lb (label_set_plain cl Hc for_ns)) as (s1 & E1 & P1).
  destruct (MF _ (parse_requirement cl ns for_ns) reqs s1 P1 R (requirement_plain cl Hc ns for_ns)) as (s2 & E2 & P2).
  exists s2. unfold parse_label_selector. cbn [ytrue negb].
  assert (Ec : forall fs, fs = [Field "matchLabels" Optional (Some TyDict) None; Field "matchExpressions" Optional (Some TyList) None] ->
    check_fields (YMap [("matchLabels", YMap labels); ("matchExpressions", YList reqs)]) fs
      = Some [("matchLabels", YMap labels); ("matchExpressions", YList reqs)]) by (intros fs ->; reflexivity).
  rewrite (Ec _ eq_refl). cbn [bind]. cbv zeta.
  change (yget [("matchLabels", YMap labels); ("matchExpressions", YList reqs)] "matchLabels") with (YMap labels).
  change (yget [("matchLabels", YMap labels); ("matchExpressions", YList reqs)] "matchExpressions") with (YList reqs).
  cbn [ylist]. unfold label_set in E1. rewrite E1. exact E2.
Qed.

(** ** A cluster for the examples: pods a and b in namespace ns (labelled env=prod), pod c in namespace other (no labels) and a
    host endpoint. *)
Definition ex_cl : cluster :=
  {| cl_peers := [pa; pb; pc; hep; dns];
     cl_labels := fun p => if peer_eqb p pa then [("app", "web"); ("tier", "front")] else if peer_eqb p pb then [("app", "db")]
                           else if peer_eqb p pc then [("app", "web")] else [];
     cl_extra := fun _ => [];
     cl_ns := fun p => if peer_eqb p pa || peer_eqb p pb then Some "ns" else if peer_eqb p pc then Some "other" else None;
     cl_nslabels := fun n => if String.eqb n "ns" then [("env", "prod")] else [];
     cl_ports := fun p => if peer_eqb p pa then [("http", (8080, 6))%Z] else [] |}.
Example ex_cl_ok : cluster_ok ex_cl.
Proof.
  intros q [<-|[<-|[<-|[<-|[<-|[]]]]]]; eexists; eexists; (split; [reflexivity|]); vm_compute; split; congruence.
Qed.
Definition sel (labels : list (string * string)) (reqs : list yaml) : yaml :=
  YMap [("matchLabels", YMap (map (fun kv => (fst kv, YStr (snd kv))) labels)); ("matchExpressions", YList reqs)].
Definition rq (key op : string) (vs : list string) : yaml :=
  YMap ([("key", YStr key); ("operator", YStr op)] ++ match vs with [] => [] | _ => [("values", YList (map YStr vs))] end).
Example ex_pod_selector :
  parse_label_selector ex_cl "ns" false (sel [("app", "web")] []) = Some [pa; pc] /\
  parse_label_selector ex_cl "ns" false (sel [("app", "web")] [rq "tier" "Exists" []]) = Some [pa] /\
  parse_label_selector ex_cl "ns" false (sel [] [rq "app" "NotIn" ["db"; "x"]; rq "tier" "DoesNotExist" []]) = Some [] /\
  meet (parse_label_selector ex_cl "ns" false (sel [] [rq "app" "In" ["db"; "web"]])) (Some (namespace_pods ex_cl (Some "ns"))) = Some [pa; pb] /\
  parse_label_selector ex_cl "ns" true (sel [("env", "prod")] []) = Some [pa; pb] /\
  parse_label_selector ex_cl "ns" true (sel [] [rq "env" "DoesNotExist" []]) = Some [pc] /\
  parse_label_selector ex_cl "ns" false YNull = Some [].
Proof. repeat apply conj; vm_compute; reflexivity. Qed.
Example ex_selector_hypotheses :
  legal_selector (sel [("app", "web")] [rq "tier" "Exists" []; rq "app" "In" ["web"]]) /\
  ~ no_requirement (sel [("env", "prod")] []) /\ ~ empty_value_sel (sel [("env", "prod")] []) /\ ~ asks_key_sel (sel [("app", "web")] []).
Proof.
  split; [|split; [|split]].
  - exists [("app", YStr "web")], [rq "tier" "Exists" []; rq "app" "In" ["web"]]. split; [reflexivity|]. split.
    + intros k v [E|[]]. injection E as <- <-. split; [vm_compute; reflexivity|]. exists "web". split; auto.
    + intros r [<-|[<-|[]]].
      * right. exists "tier", "Exists". split; [reflexivity|]. split; [vm_compute; reflexivity|]. auto.
      * left. exists "app", ["web"], "In". split; [reflexivity|]. split; [vm_compute; reflexivity|]. split; auto. split; [discriminate|].
        intros v [<-|[]]. vm_compute. reflexivity.
  - intros (m & E & H & _). injection E as <-. specialize (H _ eq_refl). discriminate.
  - intros (m & E & [(l & k & El & Hk)|(r & Hr & _)]); injection E as <-.
    + injection El as <-. cbn in Hk. destruct Hk as [Hk|[]]. discriminate.
    + destruct Hr.
  - intros (m & r & E & Hr & _). injection E as <-. destruct Hr.
Qed.

(** ** Where the statement fails *)
(** A podSelector with Exists beside a namespaceSelector never selects a pod outside the policy's own namespace
    (line 148 passes self.namespace to get_peers_with_key): pod c has the label, its namespace is selected. *)
Theorem C19_exists_in_other_namespace_refuted :
  ~ forall cl net ns yn yp s, cluster_ok cl -> parse_peer cl net ns (YMap [("namespaceSelector", yn); ("podSelector", yp)]) = Some s ->
    ~ empty_value_sel yn -> forall q, cl_ns cl q <> None ->
    In q (cl_peers cl) -> sat_sel (ns_has cl q) yn -> sat_sel (pod_has cl q) yp -> In q s.
Proof.
  intros H. specialize (H ex_cl (fun _ => None) "ns" (YMap []) (sel [] [rq "app" "Exists" []]) [pa; pb] ex_cl_ok).
  assert (X : In pc [pa; pb]).
  { apply H.
    - vm_compute. reflexivity.
    - intros (m & E & [(l & k & El & Hk)|(r & Hr & _)]); injection E as <-; [discriminate|destruct Hr].
    - vm_compute. discriminate.
    - right; right; left. reflexivity.
    - exists []. split; auto. split; [discriminate|intros r []].
    - exists [("matchLabels", YMap []); ("matchExpressions", YList [rq "app" "Exists" []])]. split; [reflexivity|]. split.
      + intros l k v El Hk. injection El as <-. destruct Hk.
      + intros r [<-|[]]. exists [("key", YStr "app"); ("operator", YStr "Exists")], "app". split; [reflexivity|]. split; [reflexivity|].
        right; right; left. split; [reflexivity|]. exists "web". left. reflexivity. }
  destruct X as [X|[X|[]]]; discriminate.
Qed.
(** A namespace without the label counts as one with the empty value: In [''] selects it, NotIn [''] excludes it. *)
Theorem C19_empty_namespace_value_refuted :
  (~ forall cl ns y s, cluster_ok cl -> parse_requirement cl ns true y = Some s -> forall q, In q s -> sat_req (ns_has cl q) y) /\
  (~ forall cl ns y s, cluster_ok cl -> parse_requirement cl ns true y = Some s -> forall q, In q (cl_peers cl) -> cl_ns cl q <> None ->
       sat_req (ns_has cl q) y -> In q s).
Proof.
  assert (NH : forall v, ~ ns_has ex_cl pc "env" v) by (intros v (n & E & F); vm_compute in E; injection E as <-; vm_compute in F; discriminate).
  split; intros H.
  - specialize (H ex_cl "ns" (rq "env" "In" [""]) [pc] ex_cl_ok). 
    assert (X : sat_req (ns_has ex_cl pc) (rq "env" "In" [""])) by (apply H; [vm_compute; reflexivity|left; reflexivity]).
    destruct X as (m & key & E & Ek & X). injection E as <-. injection Ek as <-.
    destruct X as [(_ & v & _ & X)|[[X _]|[[X _]|[X _]]]]; [exact (NH v X)|discriminate..].
  - specialize (H ex_cl "ns" (rq "env" "NotIn" [""]) [pa; pb] ex_cl_ok).
    assert (X : In pc [pa; pb]).
    { apply H; [vm_compute; reflexivity|right; right; left; reflexivity|vm_compute; discriminate|].
      exists [("key", YStr "env"); ("operator", YStr "NotIn"); ("values", YList [YStr ""])], "env". split; [reflexivity|]. split; [reflexivity|].
      right; left. split; [reflexivity|]. intros (v & _ & X). exact (NH v X). }
    destruct X as [X|[X|[]]]; discriminate.
Qed.
(** The empty namespaceSelector also selects host endpoints, which are in no namespace. *)
Theorem C19_every_namespace_only_pods_refuted :
  ~ forall cl ns y s, cluster_ok cl -> has_type TyDict y = true -> parse_label_selector cl ns true y = Some s -> forall q, In q s -> cl_ns cl q <> None.
Proof.
  intros H. specialize (H ex_cl "ns" (YMap []) [pa; pb; pc; hep] ex_cl_ok eq_refl).
  assert (X : cl_ns ex_cl hep <> None) by (apply H; [vm_compute; reflexivity|right; right; right; left; reflexivity]).
  apply X. reflexivity.
Qed.

Print Assumptions C19_pod_requirement.
Print Assumptions C19_namespace_requirement.
Print Assumptions C19_policy_pod_selector.
Print Assumptions C19_rule_pod_selector.
Print Assumptions C19_namespace_selector.
Print Assumptions C19_every_namespace.
Print Assumptions C19_both_selectors.
Print Assumptions C19_legal_selectors_accepted.
Print Assumptions C19_exists_in_other_namespace_refuted.
Print Assumptions C19_empty_namespace_value_refuted.
Print Assumptions C19_every_namespace_only_pods_refuted.
