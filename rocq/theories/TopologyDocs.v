(** * What topology documents declare, and that the finders read it (specification and inversion of TopologyModel.v). *)
From Coq Require Import ZArith List Bool Arith Lia String Ascii Permutation.
From Verif Require Import IntervalModel TextModel TextFacts PortProtoModel PeerModel PeerSetFacts PolicyModel YamlModel ClusterModel ServiceModel SidecarModel SelectorFacts
                          TopologyModel TopologyFacts.
Import ListNotations.
Local Open Scope string_scope.
Local Open Scope list_scope.
Local Open Scope nat_scope.

(** ** What documents say (independent of the finders) *)
Notation dict := (list (string * yaml)).
Definition text_at (m : dict) (k default s : string) : Prop := assoc_s k m = Some (YStr s) \/ assoc_s k m = None /\ s = default.
Definition map_at (m : dict) (k : string) (r : dict) : Prop := assoc_s k m = Some (YMap r) \/ assoc_s k m = None /\ r = [].
Definition list_at (m : dict) (k : string) (l : list yaml) : Prop := assoc_s k m = Some (YList l) \/ (assoc_s k m = None \/ ytrue (yget m k) = false) /\ l = [].
(** The entry for a key: the last one (a decoded dictionary has only one). *)
Definition last_for {A} (d : list (string * A)) (k : string) (v : A) : Prop := exists pre post, d = pre ++ (k, v) :: post /\ ~ In k (map fst post).
Definition labels_are (lm : dict) (l : list (string * string)) : Prop := forall k v, assoc_s k l = Some v <-> last_for lm k (YStr v).
(** A port entry that names a port. *)
Definition names_port (number : string) (y : yaml) (nm : string) (n pr : Z) : Prop :=
  exists m s, y = YMap m /\ yget m "name" = YStr nm /\ nm <> "" /\ yint (yget m number) = Some n /\ text_at m "protocol" "TCP" s /\ get_protocol_number (ProtoName s) = Some pr.
Definition ports_are (number : string) (entries : list yaml) (ports : list (string * (Z * Z))) : Prop :=
  forall nm n pr, assoc_s nm ports = Some (n, pr) <->
    exists pre y post, entries = pre ++ y :: post /\ names_port number y nm n pr /\ forall z m, In z post -> z = YMap m -> yget m "name" <> YStr nm.
Definition container_entries (cs : list yaml) : list yaml := flat_map (fun c => match c with YMap m => ylist (yget m "ports") | _ => [] end) cs.
(** The endpoint is in the namespace of the metadata; [V]: which namespace a name stands for. *)
Definition in_namespace (V : string -> namespace -> Prop) (md : dict) (e : endpoint) : Prop :=
  exists t n, text_at md "namespace" "default" t /\ e_ns e = Some n /\ V t n.
Definition owner_of (md : dict) (owner kind : string) : Prop :=
  (exists o t, assoc_s "ownerReferences" md = Some (YList (YMap o :: t)) /\ text_at o "name" "" owner /\ text_at o "kind" "" kind) \/
  (ytrue (yget md "ownerReferences") = false /\ owner = "" /\ kind = "").
Definition declares_pod (V : string -> namespace -> Prop) (m : dict) (e : endpoint) : Prop :=
  exists md sp lm cs, map_at m "metadata" md /\ yget m "spec" = YMap sp /\ map_at md "labels" lm /\ list_at sp "containers" cs /\
    e_kind e = 0 /\ text_at md "name" "" (e_name e) /\ in_namespace V md e /\ owner_of md (e_owner e) (e_owner_kind e) /\
    (yget m "kind" = YStr "Pod" -> text_at sp "serviceAccountName" "default" (e_account e)) /\
    labels_are lm (e_labels e) /\ ports_are "containerPort" (container_entries cs) (e_ports e) /\ e_profiles e = [].
(** The template of a workload, and the number of its pods. *)
Definition template_of (m : dict) (kind : string) (t : dict) : Prop :=
  exists sp, map_at m "spec" sp /\
    (kind <> "CronJob" /\ map_at sp "template" t \/ kind = "CronJob" /\ exists j js, map_at sp "jobTemplate" j /\ map_at j "spec" js /\ map_at js "template" t).
Definition replicas_of (m : dict) (kind : string) (r : Z) : Prop :=
  exists sp, map_at m "spec" sp /\
    let k := if String.eqb kind "Job" then "parallelism" else "replicas" in
    ((exists v, assoc_s k sp = Some v /\ yint v = Some r) \/ assoc_s k sp = None /\ r = 1%Z).
Definition declares_replica (V : string -> namespace -> Prop) (m : dict) (i : nat) (e : endpoint) : Prop :=
  exists kind md t ts tm lm cs name, yget m "kind" = YStr kind /\ map_at m "metadata" md /\ template_of m kind t /\ map_at t "spec" ts /\ map_at t "metadata" tm /\ map_at tm "labels" lm /\
    list_at ts "containers" cs /\ text_at md "name" "" name /\
    e_kind e = 0 /\ e_name e = (name ++ (if Nat.eqb i 0 then "-1" else "-2"))%string /\ in_namespace V md e /\ e_owner e = name /\ e_owner_kind e = kind /\
    text_at ts "serviceAccountName" "default" (e_account e) /\ labels_are lm (e_labels e) /\ ports_are "containerPort" (container_entries cs) (e_ports e) /\ e_profiles e = [].
(** WorkloadEndpoint and HostEndpoint. *)
Definition texts_at (m : dict) (k : string) (l : list string) : Prop := exists ys, list_at m k ys /\ ys = map YStr l.
Definition declares_calico (V : string -> namespace -> Prop) (pod : bool) (m : dict) (e : endpoint) : Prop :=
  exists md sp lm ps, map_at m "metadata" md /\ map_at m "spec" sp /\ map_at md "labels" lm /\ list_at sp "ports" ps /\
    (if pod then e_kind e = 0 /\ text_at sp "pod" "" (e_name e) /\ in_namespace V md e /\ e_owner e = ""
     else e_kind e = 1 /\ text_at md "name" "" (e_name e) /\ e_ns e = None) /\
    labels_are lm (e_labels e) /\ ports_are "port" ps (e_ports e) /\ texts_at sp "profiles" (e_profiles e).
(** The endpoints an object of a kind declares, in order. *)
Definition declares (V : string -> namespace -> Prop) (k : string) (m : dict) (le : list endpoint) : Prop :=
  if String.eqb k "Pod" then exists e, le = [e] /\ declares_pod V m e
  else if smem k creation_kinds then
    exists r, replicas_of m (match yget m "kind" with YStr k => k | _ => "" end) r /\ List.length le = Z.to_nat (Z.min r 2) /\ forall i e, nth_error le i = Some e -> declares_replica V m i e
  else if String.eqb k "WorkloadEndpoint" then exists e, le = [e] /\ declares_calico V true m e
  else if String.eqb k "HostEndpoint" then exists e, le = [e] /\ declares_calico V false m e
  else if String.eqb k "ServiceEntry" then
    exists sp, yget m "spec" = YMap sp /\ (forall e, In e le -> e_kind e = 2 /\ e_ns e = None /\ e_labels e = [] /\ e_ports e = [] /\ e_profiles e = []) /\
      forall h, (exists e, In e le /\ e_name e = h) <-> exists l, yget sp "hosts" = YList l /\ In (YStr h) l
  else le = [].
(** The objects in a document: lists of documents, and lists of Kubernetes whose items can lack a kind. *)
Definition kind_in (override : string) (m : dict) (k : string) : Prop :=
  if String.eqb override "" then yget m "kind" = YStr k \/ (forall s, yget m "kind" <> YStr s) /\ k = "" else k = override.
Inductive listing : string -> yaml -> list (string * dict) -> Prop :=
| ls_list : forall ov l oss, Forall2 (listing "") l oss -> listing ov (YList l) (List.concat oss)
| ls_items : forall ov m k l oss, kind_in ov m k -> In k list_kinds -> assoc_s "items" m = Some (YList l) -> Forall2 (listing (item_kind k)) l oss -> listing ov (YMap m) (List.concat oss)
| ls_empty : forall ov m k, kind_in ov m k -> In k list_kinds -> assoc_s "items" m = None -> listing ov (YMap m) []
| ls_object : forall ov m k, kind_in ov m k -> ~ In k list_kinds -> listing ov (YMap m) [(k, m)]
| ls_other : forall ov y, (forall l, y <> YList l) -> (forall m, y <> YMap m) -> listing ov y [].

(** ** Reading the parts *)
Ltac bd H := match type of H with bind ?x _ = Some _ => let E := fresh "E" in destruct x eqn:E; cbn [bind] in H; [|discriminate H] end.
Lemma sub_spec : forall m k r, sub m k = Some r -> map_at m k r.
Proof.
  unfold sub, get_default, map_at. intros m k r H. destruct (assoc_s k m) as [v|]; [|injection H as <-; auto]. destruct v; try discriminate. injection H as ->. auto.
Qed.
Lemma str_spec : forall m k d s, as_str (get_default m k (YStr d)) = Some s -> text_at m k d s.
Proof.
  unfold get_default, text_at. intros m k d s H. destruct (assoc_s k m) as [v|]; [|injection H as <-; auto]. destruct v; try discriminate. injection H as ->. auto.
Qed.
Lemma as_str_inv : forall y s, as_str y = Some s -> y = YStr s.
Proof. intros y r H. destruct y; try discriminate. injection H as ->. auto. Qed.
Lemma as_map_inv : forall y s, as_map y = Some s -> y = YMap s.
Proof. intros y r H. destruct y; try discriminate. injection H as ->. auto. Qed.
Lemma as_list_inv : forall y s, as_list y = Some s -> y = YList s.
Proof. intros y r H. destruct y; try discriminate. injection H as ->. auto. Qed.
Lemma fold_bind_none : forall A B (f : A -> B -> option A) l, fold_left (fun acc x => bind acc (fun a => f a x)) l None = None.
Proof. induction l; auto. Qed.
Lemma last_for_snoc : forall A (d : list (string * A)) k v k' v', last_for (d ++ [(k', v')]) k v <-> (k = k' /\ v = v') \/ (k <> k' /\ last_for d k v).
Proof.
  intros. split.
  - intros (pre & post & E & N). apply snoc_cases in E as [(-> & -> & E)|(p & -> & ->)].
    + injection E as -> ->. auto.
    + right. rewrite map_app, in_app_iff in N. cbn in N. split; [intros ->; apply N; auto|]. exists pre, p. split; auto.
  - intros [[-> ->]|(Q & pre & post & -> & N)].
    + exists d, []. split; auto.
    + exists pre, (post ++ [(k', v')]). rewrite <- app_assoc. split; auto. rewrite map_app, in_app_iff. cbn. intuition congruence.
Qed.
Lemma set_labels_spec : forall l0 m l, set_labels l0 m = Some l ->
  (forall k v, assoc_s k l = Some v <-> last_for m k (YStr v) \/ (~ In k (map fst m) /\ assoc_s k l0 = Some v)) /\ (NoDup (map fst l0) -> NoDup (map fst l)).
Proof.
  unfold set_labels. intros l0. induction m as [|[k' v'] m IH] using rev_ind; intros l H.
  - injection H as <-. split; auto. intros k v. split; [right; auto|]. intros [(pre & post & E & _)|[_ E]]; auto. destruct pre; discriminate.
  - rewrite fold_left_app in H. cbn [fold_left fst snd] in H. bd H. bd H. injection H as <-. apply as_str_inv in E0. subst v'. destruct (IH _ eq_refl) as [S N]. split; [|auto using put_NoDup].
    intros k v. rewrite assoc_put, last_for_snoc, map_app, in_app_iff. cbn. destruct (String.eqb_spec k k') as [->|Q].
    + split; [intros [= ->]; auto|]. intros [[[_ [= ->]]|[F _]]|[F _]]; auto; [destruct F; auto|]. destruct F. auto.
    + rewrite S. split.
      * intros [H|[H1 H2]]; [left; right; auto|right]. split; auto. intros [F|[F|[]]]; auto.
      * intros [[[F _]|[_ H]]|[H1 H2]]; [congruence|auto|]. right. split; auto.
Qed.
Lemma labels_spec : forall m l, set_labels [] m = Some l -> labels_are m l /\ NoDup (map fst l).
Proof.
  intros m l H. destruct (set_labels_spec _ _ _ H) as [S N]. split; [|apply N; constructor]. intros k v. rewrite S. split; [|auto]. intros [X|[_ X]]; auto. discriminate.
Qed.
(** Ports: the entries are read in order, those without a name are left out. *)
Definition port_step number := fun acc p => bind acc (fun ps => add_port number ps p).
Definition names (y : yaml) (nm : string) : Prop := exists m, y = YMap m /\ yget m "name" = YStr nm.
Definition port_last (number : string) (l : list yaml) (nm : string) (n pr : Z) : Prop :=
  exists pre y post, l = pre ++ y :: post /\ names_port number y nm n pr /\ forall z, In z post -> ~ names z nm.
Lemma port_last_iff : forall number l nm n pr, port_last number l nm n pr <->
  exists pre y post, l = pre ++ y :: post /\ names_port number y nm n pr /\ forall z m, In z post -> z = YMap m -> yget m "name" <> YStr nm.
Proof.
  intros. split; intros (pre & y & post & E & N & H); exists pre, y, post; split; auto; split; auto.
  - intros z m Hz -> F. apply (H _ Hz). exists m. auto.
  - intros z Hz (m & -> & F). exact (H _ m Hz eq_refl F).
Qed.
Lemma port_last_snoc : forall number l y nm n pr, port_last number (l ++ [y]) nm n pr <-> names_port number y nm n pr \/ (~ names y nm /\ port_last number l nm n pr).
Proof.
  intros. split.
  - intros (pre & z & post & E & N & H). apply snoc_cases in E as [(-> & -> & ->)|(p & -> & ->)]; auto. right. split; [apply H; apply in_or_app; right; left; auto|].
    exists pre, z, p. split; auto. split; auto. intros x Hx. apply H. apply in_or_app. auto.
  - intros [N|(Q & pre & z & post & -> & N & H)].
    + exists l, y, []. split; auto.
    + exists pre, z, (post ++ [y]). rewrite <- app_assoc. split; auto. split; auto. intros x Hx. apply in_app_or in Hx as [Hx|[<-|[]]]; auto.
Qed.
Lemma add_port_spec : forall number ps y ps', add_port number ps y = Some ps' -> forall nm n pr,
  assoc_s nm ps' = Some (n, pr) <-> names_port number y nm n pr \/ (~ (names y nm /\ nm <> "") /\ assoc_s nm ps = Some (n, pr)).
Proof.
  unfold add_port. intros number ps y ps' H nm n pr. bd H. apply as_map_inv in E. subst y. rename l into m.
  assert (None_case : (forall s, yget m "name" = YStr s -> s = "") -> ps' = ps -> (assoc_s nm ps' = Some (n, pr) <-> names_port number (YMap m) nm n pr \/ (~ (names (YMap m) nm /\ nm <> "") /\ assoc_s nm ps = Some (n, pr)))).
  { intros Q ->. split.
    - intros X. right. split; auto. intros [(m' & [= <-] & F) N]. apply N. apply Q. auto.
    - intros [(m' & s & [= <-] & F & N & _)|[_ X]]; auto. destruct N. auto. }
  destruct (yget m "name") as [| | | |s| |] eqn:En; try discriminate.
  - apply None_case; [discriminate|congruence].
  - destruct s as [|c s]; [apply None_case; [congruence|congruence]|]. set (name := String c s) in *. bd H. bd H. bd H. injection H as <-. apply str_spec in E0. rewrite assoc_put.
    destruct (String.eqb_spec nm name) as [->|Q]; split.
    + intros [= -> ->]. left. exists m, s0. split; auto. split; auto. split; [discriminate|]. auto.
    + intros [(m' & s' & [= <-] & F & N & F1 & F2 & F3)|[F _]].
      * assert (s' = s0) by (destruct F2 as [F2|[F2 ->]], E0 as [E0|[E0 ->]]; congruence). subst s'. congruence.
      * destruct F. split; [exists m; auto|discriminate].
    + intros X. right. split; auto. intros [(m' & [= <-] & F) N]. apply Q. congruence.
    + intros [(m' & s' & [= <-] & F & _)|[_ X]]; auto. destruct Q. congruence.
Qed.
Lemma ports_fold : forall number l ps ps', fold_left (port_step number) l (Some ps) = Some ps' -> forall nm n pr,
  assoc_s nm ps' = Some (n, pr) <-> port_last number l nm n pr \/ ((forall y, In y l -> ~ (names y nm /\ nm <> "")) /\ assoc_s nm ps = Some (n, pr)).
Proof.
  intros number. induction l as [|y l IH] using rev_ind; intros ps ps' H nm n pr.
  - injection H as <-. split; [intros X; right; split; auto; intros ? []|]. intros [(pre & z & post & E & _)|[_ X]]; auto. destruct pre; discriminate.
  - rewrite fold_left_app in H. cbn [fold_left] in H. unfold port_step at 1 in H. bd H. rename l0 into ps1. rewrite (add_port_spec _ _ _ _ H), (IH _ _ E), port_last_snoc.
    assert (NP : port_last number l nm n pr -> nm <> "") by (intros (pre & z & post & _ & (m & s & _ & _ & X & _) & _); auto).
    split.
    + intros [X|[N [X|[N' X]]]]; auto.
      * left. right. split; auto.
      * right. split; auto. intros z Hz. apply in_app_or in Hz as [Hz|[<-|[]]]; auto.
    + intros [[X|[N X]]|[N X]]; auto.
      * right. split; [tauto|auto].
      * right. split; [apply N; apply in_or_app; right; left; auto|]. right. split; auto. intros z Hz. apply N. apply in_or_app. auto.
Qed.
Lemma add_ports_fold : forall number ps y ps', add_ports number ps y = Some ps' -> fold_left (port_step number) (ylist y) (Some ps) = Some ps'.
Proof.
  unfold add_ports. intros number ps y ps' H. destruct (ytrue y) eqn:E.
  - bd H. apply as_list_inv in E0. subst y. exact H.
  - injection H as <-. destruct y as [| | | | |[|]|]; try discriminate; reflexivity.
Qed.
Lemma add_ports_spec : forall number y ps, add_ports number [] y = Some ps -> ports_are number (ylist y) ps.
Proof.
  intros number y ps H nm n pr. rewrite (ports_fold _ _ _ _ (add_ports_fold _ _ _ _ H)), port_last_iff. split; [intros [X|[_ X]]; [auto|discriminate]|auto].
Qed.
Lemma container_ports_fold : forall l ps ps',
  fold_left (fun acc c => bind acc (fun ps => bind (as_map c) (fun m => add_ports "containerPort" ps (yget m "ports")))) l (Some ps) = Some ps' ->
  fold_left (port_step "containerPort") (container_entries l) (Some ps) = Some ps'.
Proof.
  induction l as [|c l IH]; intros ps ps' H; cbn [fold_left bind] in H; [auto|]. destruct (as_map c) as [m|] eqn:Em; cbn [bind] in H; [|rewrite fold_bind_none in H; discriminate].
  apply as_map_inv in Em. subst c. destruct (add_ports "containerPort" ps (yget m "ports")) as [ps1|] eqn:E; [|rewrite fold_bind_none in H; discriminate].
  cbn [container_entries flat_map]. rewrite fold_left_app, (add_ports_fold _ _ _ _ E). apply IH. auto.
Qed.
Lemma container_ports_spec : forall sp ps, container_ports (get_default sp "containers" (YList [])) = Some ps -> exists cs, list_at sp "containers" cs /\ ports_are "containerPort" (container_entries cs) ps.
Proof.
  unfold container_ports. intros sp ps H. bd H. apply as_list_inv in E. exists l. split.
  - unfold get_default in E. unfold list_at. destruct (assoc_s "containers" sp) as [v|]; [left; congruence|]. injection E as <-. auto.
  - intros nm n pr. rewrite (ports_fold _ _ _ _ (container_ports_fold _ _ _ H)), port_last_iff. split; [intros [X|[_ X]]; [auto|discriminate]|auto].
Qed.
Lemma strs_map : forall l r, strs l = Some r -> l = map YStr r.
Proof. induction l as [|y l IH]; intros r H; cbn in H; [injection H as <-; auto|]. destruct y; try discriminate. destruct (strs l); [|discriminate]. injection H as <-. cbn. f_equal. auto. Qed.
Lemma ylist_at : forall m k, (forall l, yget m k = YList l \/ ytrue (yget m k) = false -> list_at m k (ylist (yget m k))) .
Proof.
  intros m k l H. unfold list_at, yget in *. destruct (assoc_s k m) as [v|] eqn:E; [|right; auto].
  destruct H as [->|H]; [left; auto|]. right. split; auto. destruct v as [| | | | |[|]|]; try discriminate; reflexivity.
Qed.
Lemma profiles_spec : forall m l, profile_list (yget m "profiles") = Some l -> texts_at m "profiles" l.
Proof.
  unfold profile_list, texts_at. intros m l H. destruct (ytrue (yget m "profiles")) eqn:E.
  - bd H. apply as_list_inv in E0. exists l0. split; [|apply strs_map; auto]. pose proof (ylist_at m "profiles" l0 (or_introl E0)) as X. rewrite E0 in X. auto.
  - injection H as <-. exists []. split; auto. right. auto.
Qed.
Lemma ports_at : forall sp ps, add_ports "port" [] (yget sp "ports") = Some ps -> exists l, list_at sp "ports" l /\ ports_are "port" l ps.
Proof.
  intros sp ps H. exists (ylist (yget sp "ports")). split; [|apply add_ports_spec; auto]. unfold add_ports in H. destruct (ytrue (yget sp "ports")) eqn:E.
  - bd H. apply as_list_inv in E0. apply (ylist_at sp "ports" l). auto.
  - apply (ylist_at sp "ports" []). auto.
Qed.
(** Namespaces keep the name they were made with. *)
Definition nss_ok (nss : list (string * namespace)) : Prop := forall k n, assoc_s k nss = Some n -> n_name n = (if String.eqb k "" then "default" else k).
Lemma get_namespace_spec : forall nss k nss' n, get_namespace nss k = (nss', n) -> nss_ok nss -> nss_ok nss' /\ assoc_s k nss' = Some n /\ n_name n = (if String.eqb k "" then "default" else k).
Proof.
  unfold get_namespace. intros nss k nss' n H O. destruct (assoc_s k nss) as [x|] eqn:E.
  - injection H as <- <-. split; auto.
  - injection H as <- <-.
    assert (A : forall x, assoc_s x (nss ++ [(k, new_namespace k)]) = match assoc_s x nss with Some v => Some v | None => if String.eqb x k then Some (new_namespace k) else None end).
    { clear. intros x. induction nss as [|[a b] nss IH]; cbn; auto. destruct (String.eqb x a); auto. }
    rewrite A, E, String.eqb_refl. split; auto. intros x m Q. rewrite A in Q. destruct (assoc_s x nss) eqn:Ex; [injection Q as <-; auto|].
    destruct (String.eqb_spec x k) as [->|]; [injection Q as <-; reflexivity|discriminate].
Qed.

(** ** Objects *)
(** A step of the finders: endpoints [le] are added; namespaces are only added; each pod refers to a namespace object of the dictionary. *)
Definition grows (nss nss' : list (string * namespace)) : Prop := forall k n, assoc_s k nss = Some n -> assoc_s k nss' = Some n.
Definition of_dict (nss : list (string * namespace)) (e : endpoint) : Prop := forall n, e_ns e = Some n -> exists k, assoc_s k nss = Some n.
Definition fresh_only (nss nss' : list (string * namespace)) : Prop := forall k n, assoc_s k nss' = Some n -> assoc_s k nss = Some n \/ n = new_namespace k.
Record adds (st : tstate) (le : list endpoint) (st' : tstate) : Prop := {
  ad_steps : steps st le st'; ad_ok : nss_ok (ts_nss st'); ad_grows : grows (ts_nss st) (ts_nss st'); ad_fresh : fresh_only (ts_nss st) (ts_nss st');
  ad_ref : forall e, In e le -> of_dict (ts_nss st') e; ad_wf : forall e, In e le -> wf_ep e
}.
Lemma adds_app : forall a l1 b l2 c, adds a l1 b -> adds b l2 c -> adds a (l1 ++ l2) c.
Proof.
  intros a l1 b l2 c [S1 O1 G1 F1 R1 W1] [S2 O2 G2 F2 R2 W2]. constructor; auto.
  - eapply steps_app; eauto.
  - intros k n H. auto.
  - intros k n H. destruct (F2 k n H) as [H'|H']; auto.
  - intros e H. apply in_app_or in H as [H|H]; auto. intros n E. destruct (R1 e H n E) as (k & K). exists k. auto.
  - intros e H. apply in_app_or in H as [H|H]; auto.
Qed.
Lemma grows_get : forall nss k nss' n, get_namespace nss k = (nss', n) -> grows nss nss' /\ fresh_only nss nss'.
Proof.
  unfold get_namespace. intros nss k nss' n H. destruct (assoc_s k nss) eqn:E; injection H as <- <-; [split; [intros x m; auto|intros x m; auto]|].
  assert (A : forall x, assoc_s x (nss ++ [(k, new_namespace k)]) = match assoc_s x nss with Some v => Some v | None => if String.eqb x k then Some (new_namespace k) else None end).
  { clear. intros x. induction nss as [|[a b] nss IH]; cbn; auto. destruct (String.eqb x a); auto. }
  split; intros x m Q; rewrite A in *; [rewrite Q; auto|]. destruct (assoc_s x nss); auto. destruct (String.eqb_spec x k) as [->|]; [injection Q as <-; auto|discriminate].
Qed.
(** One endpoint after getting its namespace. *)
Lemma adds_pod : forall st k nss n e, nss_ok (ts_nss st) -> get_namespace (ts_nss st) k = (nss, n) -> e_ns e = Some n -> e_kind e = 0 -> NoDup (map fst (e_labels e)) ->
  adds st [e] (add_endpoint (with_nss st nss) e).
Proof.
  intros st k nss n e O G En Ek N. destruct (get_namespace_spec _ _ _ _ G O) as (O' & A & _). destruct (grows_get _ _ _ _ G) as [Gr Fr].
  assert (Q : ts_nss (add_endpoint (with_nss st nss) e) = nss) by (unfold add_endpoint; destruct (2 <=? _); reflexivity).
  constructor; rewrite ?Q; auto.
  - apply steps_add; unfold add_endpoint; cbn [with_nss ts_peers ts_counts]; destruct (2 <=? _); reflexivity.
  - intros x [<-|[]] m Em. rewrite En in Em. injection Em as <-. exists k. auto.
  - intros x [<-|[]]. split; auto. split; [|lia]. rewrite En. split; intros; [auto|discriminate].
Qed.
Lemma adds_other : forall st e, nss_ok (ts_nss st) -> e_ns e = None -> e_kind e = 1 \/ e_kind e = 2 -> NoDup (map fst (e_labels e)) -> adds st [e] (add_endpoint st e).
Proof.
  intros st e O En Ek N. assert (Q : ts_nss (add_endpoint st e) = ts_nss st) by (unfold add_endpoint; destruct (2 <=? _); reflexivity).
  constructor; rewrite ?Q; auto.
  - apply steps_add; auto.
  - intros k n; auto.
  - intros k n; auto.
  - intros x [<-|[]] m Em. congruence.
  - intros x [<-|[]]. split; auto. split; [|lia]. rewrite En. split; [intros []; auto|lia].
Qed.
Lemma adds_nil : forall st st', nss_ok (ts_nss st') -> ts_peers st' = ts_peers st -> ts_counts st' = ts_counts st -> grows (ts_nss st) (ts_nss st') -> fresh_only (ts_nss st) (ts_nss st') -> adds st [] st'.
Proof. intros st st' O E1 E2 G F. constructor; auto; try (intros e []). apply steps_nil; auto. Qed.
Definition dict_view (nss : list (string * namespace)) (t : string) (n : namespace) : Prop := assoc_s t nss = Some n.
Lemma nss_add : forall st e, ts_nss (add_endpoint st e) = ts_nss st.
Proof. intros. unfold add_endpoint. destruct (2 <=? _); reflexivity. Qed.
Lemma pod_read : forall st m st', nss_ok (ts_nss st) -> add_pod st m = Some st' -> exists e, declares_pod (dict_view (ts_nss st')) m e /\ adds st [e] st'.
Proof.
  unfold add_pod. intros st m st' O H. bd H. rename l into md. bd H. rename s into name. bd H. rename s into t. destruct (get_namespace (ts_nss st) t) as [nss n] eqn:G.
  bd H. rename p into owner. bd H. rename l into sp. bd H. rename s into account. bd H. rename l into lm. bd H. rename l into labels. bd H. rename l into ports. injection H as <-.
  eexists. split; [|eapply adds_pod; try exact G; auto; cbn [e_labels]; apply (labels_spec _ _ E6)].
  apply sub_spec in E. apply str_spec in E0. apply str_spec in E1. apply as_map_inv in E3. apply sub_spec in E5. apply labels_spec in E6. apply container_ports_spec in E7 as (cs & C1 & C2).
  destruct (get_namespace_spec _ _ _ _ G O) as (O' & A & B).
  exists md, sp, lm, cs. cbn. split; auto. split; auto. split; auto. split; auto. split; auto. split; auto. split; [exists t, n; rewrite nss_add; auto|]. split; [|split; [|split; [tauto|auto]]].
  - unfold owner_of, get_default, yget in *. destruct (assoc_s "ownerReferences" md) as [v|] eqn:Eo.
    + destruct (ytrue v) eqn:Ev.
      * destruct v as [| | | | |[|[| | | | | |o] l]|]; try discriminate. bd E2. bd E2. injection E2 as <-. left. exists o, l. split; auto. cbn. apply str_spec in E7, E8. auto.
      * injection E2 as <-. right. auto.
    + injection E2 as <-. right. auto.
  - intros Ek. rewrite Ek in E4. cbn in E4. apply str_spec in E4. auto.
Qed.
Lemma wep_read : forall st m st', nss_ok (ts_nss st) -> add_wep st m = Some st' -> exists e, declares_calico (dict_view (ts_nss st')) true m e /\ adds st [e] st'.
Proof.
  unfold add_wep. intros st m st' O H. bd H. rename l into md. bd H. rename l into sp. bd H. rename s into t. destruct (get_namespace (ts_nss st) t) as [nss n] eqn:G.
  bd H. rename s into name. bd H. rename l into lm. bd H. rename l into labels. bd H. rename l into ports. bd H. rename l into profiles. injection H as <-.
  eexists. split; [|eapply adds_pod; try exact G; auto; cbn [e_labels]; apply (labels_spec _ _ E4)].
  apply sub_spec in E, E0, E3. apply str_spec in E1, E2. apply labels_spec in E4. apply ports_at in E5 as (ps & C1 & C2). apply profiles_spec in E6.
  destruct (get_namespace_spec _ _ _ _ G O) as (O' & A & B).
  exists md, sp, lm, ps. cbn. split; auto. split; auto. split; auto. split; auto. split; [|split; [tauto|auto]]. split; auto. split; auto. split; auto. exists t, n. rewrite nss_add. auto.
Qed.
Lemma hep_read : forall st m st', nss_ok (ts_nss st) -> add_hep st m = Some st' -> exists e, declares_calico (dict_view (ts_nss st')) false m e /\ adds st [e] st'.
Proof.
  unfold add_hep. intros st m st' O H. bd H. rename l into md. bd H. rename l into sp. bd H. rename s into name. bd H. rename l into lm. bd H. rename l into labels.
  bd H. rename l into ports. bd H. rename l into profiles. injection H as <-.
  eexists. split; [|apply adds_other; auto; cbn [e_labels]; apply (labels_spec _ _ E3)].
  apply sub_spec in E, E0, E2. apply str_spec in E1. apply labels_spec in E3. apply ports_at in E4 as (ps & C1 & C2). apply profiles_spec in E5.
  exists md, sp, lm, ps. cbn. split; auto. split; auto. split; auto. split; auto. split; [|split; [tauto|auto]]. auto.
Qed.
(** The pods of a workload. *)
Lemma replicas_fold : forall (mk : nat -> endpoint) n, (forall i, e_ns (mk i) = Some n /\ e_kind (mk i) = 0 /\ NoDup (map fst (e_labels (mk i)))) ->
  forall c st, nss_ok (ts_nss st) -> (exists k, assoc_s k (ts_nss st) = Some n) -> forall j, adds st (map mk (seq j c)) (fold_left (fun st i => add_endpoint st (mk i)) (seq j c) st).
Proof.
  intros mk n M. induction c as [|c IH]; intros st O (k & K) j; cbn [seq map fold_left].
  - apply adds_nil; auto; intros x y; auto.
  - assert (Q : ts_nss (add_endpoint st (mk j)) = ts_nss st) by (unfold add_endpoint; destruct (2 <=? _); reflexivity).
    change (mk j :: map mk (seq (S j) c)) with ([mk j] ++ map mk (seq (S j) c)). destruct (M j) as (M1 & M2 & M3). eapply adds_app; [|apply IH; rewrite Q; eauto].
    constructor; rewrite ?Q; auto; try (intros x y; auto; fail).
    + apply steps_add; auto.
    + intros x [<-|[]] y Ey. rewrite M1 in Ey. injection Ey as <-. exists k. auto.
    + intros x [<-|[]]. split; auto. split; [|lia]. rewrite M1. split; intros; [auto|discriminate].
Qed.
Lemma fold_some : forall A B (f : A -> B -> A) (g : A -> B -> option A) l a, (forall a b, g a b = Some (f a b)) -> fold_left (fun acc b => bind acc (fun a => g a b)) l (Some a) = Some (fold_left f l a).
Proof. intros A B f g. induction l as [|b l IH]; intros a H; cbn; auto. rewrite H. auto. Qed.
Lemma nss_fold : forall (mk : nat -> endpoint) l st, ts_nss (fold_left (fun st i => add_endpoint st (mk i)) l st) = ts_nss st.
Proof. induction l as [|i l IH]; intros st; cbn; auto. rewrite IH. apply nss_add. Qed.
Lemma workload_read : forall st m st' k, nss_ok (ts_nss st) -> yget m "kind" = YStr k -> add_workload st m = Some st' ->
  exists r le, replicas_of m k r /\ List.length le = Z.to_nat (Z.min r 2) /\ (forall i e, nth_error le i = Some e -> declares_replica (dict_view (ts_nss st')) m i e) /\ adds st le st'.
Proof.
  unfold add_workload. intros st m st' kind O K H. rewrite K in H. cbn match in H. bd H. rename l into md. bd H. rename s into name. bd H. rename s into t.
  destruct (get_namespace (ts_nss st) t) as [nss n] eqn:G. bd H. rename l into sp0. bd H. rename z into r.
  apply sub_spec in E, E2. apply str_spec in E0, E1. destruct (get_namespace_spec _ _ _ _ G O) as (O' & A & B). destruct (grows_get _ _ _ _ G) as [Gr Fr].
  assert (R : replicas_of m kind r).
  { exists sp0. split; auto. cbn zeta. unfold get_default in E3. destruct (assoc_s (if String.eqb kind "Job" then "parallelism" else "replicas") sp0) as [v|]; [left; eauto|right]. split; auto. injection E3 as <-. auto. }
  assert (AN : adds st [] (with_nss st nss)) by (apply adds_nil; auto).
  exists r. destruct (String.eqb kind "Job" && (r =? 0)%Z) eqn:EJ.
  - apply andb_true_iff in EJ as [_ EJ]. apply Z.eqb_eq in EJ. subst r. injection H as <-. exists []. split; auto. split; auto. split; [intros [|i] e F; discriminate|auto].
  - bd H. rename l into sp. bd H. rename l into tp. bd H. rename l into ts. bd H. rename s into account. clear EJ.
    apply sub_spec in E5, E6. apply str_spec in E7.
    assert (T : template_of m kind tp).
    { exists sp0. split; auto. destruct (String.eqb_spec kind "CronJob") as [->|N]; [right|left; injection E4 as ->; auto]. split; auto. bd E4. apply sub_spec in E4, E8. exists l, sp. auto. }
    destruct (Z.to_nat (Z.min r 2)) as [|c] eqn:Ec.
    + injection H as <-. exists []. split; auto. split; auto. split; [intros [|i] e F; discriminate|auto].
    + destruct (sub tp "metadata") as [tm|] eqn:Etm; [|cbn [seq fold_left bind] in H; rewrite fold_bind_none in H; discriminate].
      destruct (sub tm "labels") as [lm|] eqn:Elm; [|cbn [seq fold_left bind] in H; rewrite Elm in H; cbn [bind] in H; rewrite fold_bind_none in H; discriminate].
      destruct (set_labels [] lm) as [labels|] eqn:El; [|cbn [seq fold_left bind] in H; rewrite Elm in H; cbn [bind] in H; rewrite El in H; cbn [bind] in H; rewrite fold_bind_none in H; discriminate].
      destruct (container_ports (get_default ts "containers" (YList []))) as [ports|] eqn:Ep;
        [|cbn [seq fold_left bind] in H; rewrite Elm in H; cbn [bind] in H; rewrite El in H; cbn [bind] in H; rewrite fold_bind_none in H; discriminate].
      set (mk := fun i => Endpoint 0 (name ++ "-" ++ replica_text i)%string (Some n) name kind account labels ports []) in *.
      erewrite (fold_some _ _ (fun st i => add_endpoint st (mk i))) in H; [|intros a b; cbn [bind]; rewrite Elm; cbn [bind]; rewrite El; reflexivity]. injection H as <-.
      destruct (labels_spec _ _ El) as [L1 L2]. apply sub_spec in Etm, Elm. apply container_ports_spec in Ep as (cs & C1 & C2).
      exists (map mk (seq 1 (S c))). split; auto. split; [rewrite map_length, seq_length; lia|]. split.
      * intros i e Hi. rewrite nth_error_map in Hi. destruct (nth_error (seq 1 (S c)) i) as [j|] eqn:Ej; [|discriminate]. injection Hi as <-.
        assert (L : i < S c) by (rewrite <- (seq_length (S c) 1); apply nth_error_Some; congruence).
        assert (j = 1 + i) by (rewrite (nth_error_nth' _ 0) in Ej by (rewrite seq_length; auto); rewrite seq_nth in Ej by auto; congruence). subst j.
        exists kind, md, tp, ts, tm, lm, cs, name. cbn [mk e_kind e_name e_ns e_owner e_owner_kind e_account e_labels e_ports e_profiles]. repeat (split; [solve [auto]|]).
        split; [assert (c <= 1) by lia; destruct i as [|[|i]]; [reflexivity|reflexivity|lia]|]. split; [exists t, n; unfold dict_view; rewrite nss_fold, nss_add; cbn [with_nss ts_nss]; auto|]. auto 10.
      * change (map mk (seq 1 (S c))) with ([] ++ map mk (seq 1 (S c))). eapply adds_app; [exact AN|]. refine (replicas_fold mk n _ (S c) (with_nss st nss) O' _ 1); [intros i; cbn; auto|exists t; auto].
Qed.
Lemma entries_fold : forall (hosts : list string) st, nss_ok (ts_nss st) ->
  adds st (map (fun h => Endpoint 2 h None "" "" "" [] [] []) hosts) (fold_left (fun st h => add_endpoint st (Endpoint 2 h None "" "" "" [] [] [])) hosts st).
Proof.
  induction hosts as [|h hosts IH]; intros st O; cbn [map fold_left]; [apply adds_nil; auto; intros k n; auto|].
  set (e := Endpoint 2 h None "" "" "" [] [] []). assert (Q : ts_nss (add_endpoint st e) = ts_nss st) by (unfold add_endpoint; destruct (2 <=? _); reflexivity).
  match goal with |- adds _ (?x :: ?l) _ => change (x :: l) with ([x] ++ l) end. eapply adds_app; [apply adds_other; auto; constructor|]. apply IH. rewrite Q. auto.
Qed.
Lemma object_read : forall st k m st', nss_ok (ts_nss st) -> kind_in "" m k \/ In k (map item_kind list_kinds) -> add_object st (k, m) = Some st' -> exists le, declares (dict_view (ts_nss st')) k m le /\ adds st le st'.
Proof.
  unfold add_object, declares. intros st k m st' O K H. destruct (String.eqb_spec k "Pod") as [->|_].
  { destruct (pod_read _ _ _ O H) as (e & D & A). exists [e]. eauto. }
  destruct (smem k creation_kinds) eqn:Ec.
  { assert (Ek : yget m "kind" = YStr k).
    { destruct K as [[K|[K ->]]|K]; auto; [vm_compute in Ec; discriminate|]. exfalso. cbn in K. repeat (destruct K as [<-|K]; [vm_compute in Ec; discriminate|]). destruct K. }
    destruct (workload_read _ _ _ _ O Ek H) as (r & le & R & L & D & A). exists le. rewrite Ek. split; auto. exists r. auto. }
  destruct (String.eqb_spec k "WorkloadEndpoint") as [->|_]; [destruct (wep_read _ _ _ O H) as (e & D & A); exists [e]; eauto|].
  destruct (String.eqb_spec k "HostEndpoint") as [->|_]; [destruct (hep_read _ _ _ O H) as (e & D & A); exists [e]; eauto|].
  destruct (smem k ["NetworkSet"; "GlobalNetworkSet"]); [discriminate|].
  destruct (String.eqb_spec k "ServiceEntry") as [->|_].
  { unfold add_entries in H. bd H. rename l into hosts. injection H as <-. eexists. split; [|apply entries_fold; auto]. unfold service_entry in E. bd E. destruct o; [|discriminate]. cbn [bind] in E. bd E. rename l into sp.
    apply check_fields_map in E1 as [E1 _]. exists sp. split; auto. split; [intros e He; apply in_map_iff in He as (h & <- & _); auto|].
    destruct (yget sp "hosts") as [| | | | |[|h t]|] eqn:Eh; try discriminate. bd E. rename l into hs. destruct (forallb entry_host_ok hs); [|discriminate]. injection E as <-.
    apply strs_map in E2. intros x. split.
    - intros (e & He & <-). apply in_map_iff in He as (y & <- & Hy). cbn. apply nodup_In in Hy. exists (h :: t). split; auto. rewrite E2. apply in_map. auto.
    - intros (l & [= <-] & Hx). rewrite E2 in Hx. apply in_map_iff in Hx as (y & [= ->] & Hy). eexists. split; [apply in_map_iff; exists x; split; [reflexivity|apply nodup_In; auto]|reflexivity]. }
  injection H as <-. exists []. split; auto. apply adds_nil; auto; intros x y; auto.
Qed.

(** ** Documents *)
Lemma in_namespace_mono : forall (V V' : string -> namespace -> Prop) md e, (forall t n, V t n -> V' t n) -> in_namespace V md e -> in_namespace V' md e.
Proof. intros V V' md e M (t & n & A & B & C). exists t, n. auto. Qed.
Lemma declares_mono : forall (V V' : string -> namespace -> Prop) k m le, (forall t n, V t n -> V' t n) -> declares V k m le -> declares V' k m le.
Proof.
  intros V V' k m le M D. pose proof (in_namespace_mono V V') as I. unfold declares in *. destruct (String.eqb k "Pod").
  { destruct D as (e & -> & md & sp & lm & cs & D). exists e. split; auto. exists md, sp, lm, cs. decompose [and] D. auto 20. }
  destruct (smem k creation_kinds).
  { destruct D as (r & R & L & D). exists r. split; auto. split; auto. intros i e H. destruct (D i e H) as (kind & md & t & ts & tm & lm & cs & name & D').
    exists kind, md, t, ts, tm, lm, cs, name. decompose [and] D'. auto 25. }
  destruct (String.eqb k "WorkloadEndpoint").
  { destruct D as (e & -> & md & sp & lm & ps & D). exists e. split; auto. exists md, sp, lm, ps. decompose [and] D. auto 20. }
  destruct (String.eqb k "HostEndpoint"); auto.
Qed.
Section Nested.
  Variable P : yaml -> Prop.
  Hypothesis Hleaf : forall y, (forall l, y <> YList l) -> (forall m, y <> YMap m) -> P y.
  Hypothesis Hlist : forall l, Forall P l -> P (YList l).
  Hypothesis Hmap : forall m, Forall (fun kv => P (snd kv)) m -> P (YMap m).
  Fixpoint yaml_nested (y : yaml) : P y :=
    match y with
    | YList l => Hlist l ((fix all l : Forall P l := match l with [] => Forall_nil _ | x :: t => Forall_cons x (yaml_nested x) (all t) end) l)
    | YMap m => Hmap m ((fix all m : Forall (fun kv => P (snd kv)) m := match m with [] => Forall_nil _ | x :: t => Forall_cons x (yaml_nested (snd x)) (all t) end) m)
    | y => Hleaf y ltac:(discriminate) ltac:(discriminate)
    end.
End Nested.
Definition item_ov (ov : string) : Prop := ov = "" \/ In ov (map item_kind list_kinds).
Definition kind_ok (o : string * dict) : Prop := kind_in "" (snd o) (fst o) \/ In (fst o) (map item_kind list_kinds).
Definition all_objects ov := fix all (l : list yaml) : option (list (string * dict)) :=
  match l with [] => Some [] | x :: t => bind (objects ov x) (fun a => bind (all t) (fun b => Some (a ++ b))) end.
Lemma all_objects_spec : forall ov l os, Forall (fun x => forall os, objects ov x = Some os -> listing ov x os /\ Forall kind_ok os) l -> all_objects ov l = Some os ->
  exists oss, os = List.concat oss /\ Forall2 (listing ov) l oss /\ Forall kind_ok os.
Proof.
  intros ov. induction l as [|x l IH]; intros os F H; cbn in H.
  - injection H as <-. exists []. auto.
  - bd H. bd H. injection H as <-. inversion F as [|? ? F1 F2]; subst. destruct (F1 _ E) as [L1 K1]. destruct (IH _ F2 eq_refl) as (oss & -> & L2 & K2).
    exists (l0 :: oss). cbn. split; auto. split; auto. apply Forall_app. auto.
Qed.
Lemma objects_spec : forall y, (forall ov os, item_ov ov -> objects ov y = Some os -> listing ov y os /\ Forall kind_ok os) /\
  forall l, y = YList l -> Forall (fun x => forall ov os, item_ov ov -> objects ov x = Some os -> listing ov x os /\ Forall kind_ok os) l.
Proof.
  apply yaml_nested.
  - intros y N1 N2. split; [|intros l ->; destruct (N1 l); auto]. intros ov os _ H. assert (os = []) as -> by (destruct y; try (injection H as <-; auto); [destruct (N1 l); auto|destruct (N2 m); auto]).
    split; auto. constructor; auto.
  - intros l F. assert (F' : Forall (fun x => forall ov os, item_ov ov -> objects ov x = Some os -> listing ov x os /\ Forall kind_ok os) l) by (eapply Forall_impl; [|exact F]; intros a [H _]; exact H).
    split; [|intros ? [= <-]; auto]. intros ov os I H. change (all_objects "" l = Some os) in H.
    destruct (all_objects_spec "" l os) as (oss & -> & L & K); [|auto|split; auto; constructor; auto]. eapply Forall_impl; [|exact F']. intros a Ha os' H'. apply Ha; auto. left; auto.
  - intros m F. split; [|discriminate]. intros ov os I H. cbn [objects] in H. cbn zeta in H.
    set (k := if String.eqb ov "" then match yget m "kind" with YStr k => k | _ => "" end else ov) in *.
    assert (K : kind_in ov m k). { unfold kind_in, k. destruct (String.eqb ov ""); auto. destruct (yget m "kind"); auto; right; split; auto; discriminate. }
    assert (KO : kind_ok (k, m)). { unfold kind_ok, kind_in in *. cbn in *. destruct I as [->|I]; [left; exact K|]. destruct (String.eqb_spec ov "") as [->|]; [left; exact K|]. right. rewrite K. exact I. }
    clearbody k. destruct (smem k list_kinds) eqn:Ek.
    + apply smem_In in Ek. revert H. match goal with |- ?f m = _ -> _ => set (find := f) end. intros H.
      assert (Q : match assoc_s "items" m with None => os = [] | Some v => exists l, v = YList l /\ all_objects (item_kind k) l = Some os end).
      { clear - H. induction m as [|[key v] m IH]; [injection H as <-; reflexivity|]. cbn [assoc_s]. unfold find in H. cbn beta iota fix in H. rewrite String.eqb_sym in H.
        destruct (String.eqb "items" key); [|exact (IH H)]. destruct v; try discriminate. exists l. split; [reflexivity|exact H]. }
      destruct (assoc_s "items" m) as [v|] eqn:Ei.
      * destruct Q as (l & -> & Q). assert (Fv : Forall (fun x => forall ov os, item_ov ov -> objects ov x = Some os -> listing ov x os /\ Forall kind_ok os) l).
        { apply assoc_In in Ei. rewrite Forall_forall in F. destruct (F _ Ei) as [_ X]. apply X. reflexivity. }
        destruct (all_objects_spec (item_kind k) l os) as (oss & -> & L & KK); [|auto|].
        -- eapply Forall_impl; [|exact Fv]. intros a Ha os' H'. apply Ha; auto. right. apply in_map. auto.
        -- split; auto. eapply ls_items; eauto.
      * subst os. split; auto. eapply ls_empty; eauto.
    + injection H as <-. assert (~ In k list_kinds) by (rewrite <- smem_In, Ek; discriminate). split; [apply ls_object; auto|]. constructor; auto.
Qed.
Lemma endpoints_read : forall st y st', nss_ok (ts_nss st) -> endpoints_doc st y = Some st' ->
  exists os les, listing "" y os /\ Forall2 (fun o le => declares (dict_view (ts_nss st')) (fst o) (snd o) le) os les /\ adds st (List.concat les) st'.
Proof.
  unfold endpoints_doc. intros st y st' O H. bd H. rename l into os. destruct (proj1 (objects_spec y) "" os) as [L K]; auto; [left; auto|]. exists os. clear E.
  enough (X : exists les, Forall2 (fun o le => declares (dict_view (ts_nss st')) (fst o) (snd o) le) os les /\ adds st (List.concat les) st') by (destruct X as (les & A & B); exists les; auto).
  clear L. revert st O H. induction os as [|[k m] os IH]; intros st O H; cbn [fold_left bind] in H.
  - injection H as <-. exists []. split; auto. apply adds_nil; auto; intros a b; auto.
  - inversion K as [|? ? K1 K2]; subst. destruct (add_object st (k, m)) as [st1|] eqn:E; [|rewrite fold_bind_none in H; discriminate].
    destruct (object_read _ _ _ _ O K1 E) as (le & D & A). destruct (IH K2 st1 (ad_ok _ _ _ A) H) as (les & Ds & As).
    exists (le :: les). split; [|cbn; eapply adds_app; eauto]. constructor; auto. cbn. eapply declares_mono; [|exact D]. intros t n. exact (ad_grows _ _ _ As t n).
Qed.
Lemma service_read : forall st y st', nss_ok (ts_nss st) -> add_service st y = Some st' -> adds st [] st'.
Proof.
  unfold add_service. intros st y st' O H. bd H. destruct o as [s|]; injection H as <-; [|apply adds_nil; auto; intros a b; auto].
  destruct (get_namespace (ts_nss st) (ks_ns s)) as [nss n] eqn:G. destruct (get_namespace_spec _ _ _ _ G O) as (O' & _). destruct (grows_get _ _ _ _ G) as [G1 G2]. apply adds_nil; auto.
Qed.
Lemma services_read : forall st y st', nss_ok (ts_nss st) -> services_doc st y = Some st' -> adds st [] st'.
Proof.
  unfold services_doc. intros st y st' O H. assert (N : adds st [] st) by (apply adds_nil; auto; intros a b; auto).
  destruct y; try (injection H as <-; auto; fail). destruct (yget m "kind"); try (injection H as <-; auto; fail).
  destruct (String.eqb s "List"); [|destruct (String.eqb s "Service"); [eapply service_read; eauto|injection H as <-; auto]].
  bd H. clear E N. revert st O H. induction l as [|y l IH]; intros st O H; cbn [fold_left bind] in H; [injection H as <-; apply adds_nil; auto; intros a b; auto|].
  match type of H with fold_left ?f l ?x = _ => destruct x as [st1|] eqn:E; [|rewrite fold_bind_none in H; discriminate] end.
  assert (A : adds st [] st1).
  { match type of E with (if ?c then _ else _) = _ => destruct c end; [eapply service_read; eauto|injection E as <-; apply adds_nil; auto; intros a b; auto]. }
  change (@nil endpoint) with (@nil endpoint ++ []). eapply adds_app; [exact A|]. apply IH; auto. apply A.
Qed.
(** A document has one listing. *)
Lemma kind_in_fun : forall ov m k k', kind_in ov m k -> kind_in ov m k' -> k = k'.
Proof.
  unfold kind_in. intros ov m k k'. destruct (String.eqb ov ""); [|congruence]. intros [A|[A ->]] [B|[B ->]]; auto; [congruence|destruct (B k A)|destruct (A k' B)].
Qed.
Lemma listing_fun : forall y, (forall ov os os', listing ov y os -> listing ov y os' -> os = os') /\ forall l, y = YList l -> Forall (fun x => forall ov os os', listing ov x os -> listing ov x os' -> os = os') l.
Proof.
  assert (Z : forall ov l, Forall (fun x => forall ov os os', listing ov x os -> listing ov x os' -> os = os') l -> forall oss oss', Forall2 (listing ov) l oss -> Forall2 (listing ov) l oss' -> oss = oss').
  { intros ov l F. induction F as [|x l H F IH]; intros oss oss' A B; inversion A; inversion B; subst; auto. f_equal; [eapply H; eauto|auto]. }
  apply yaml_nested.
  - intros y N1 N2. split; [|intros l ->; destruct (N1 l); auto]. intros ov os os' A B. inversion A; subst; try (destruct (N1 l); auto; fail); try (destruct (N2 m); auto; fail).
    inversion B; subst; auto; try (destruct (N1 l); auto; fail); try (destruct (N2 m); auto; fail).
  - intros l F. assert (F' : Forall (fun x => forall ov os os', listing ov x os -> listing ov x os' -> os = os') l) by (eapply Forall_impl; [|exact F]; intros a [X _]; exact X). split; [|intros ? [= <-]; auto].
    intros ov os os' A B. inversion A as [ov1 l1 oss1 A1| | | |ov1 y1 A1]; subst; [|destruct (A1 l); auto]. inversion B as [ov2 l2 oss2 B1| | | |ov2 y2 B1]; subst; [|destruct (B1 l); auto]. f_equal. eapply Z; eauto.
  - intros m F. split; [|discriminate]. intros ov os os' A B.
    inversion A as [|? ? k l oss K I E G|? ? k K I E|? ? k K I|? ? N1 N2]; subst; try (destruct (N2 m); auto; fail);
    (inversion B as [|? ? k' l' oss' K' I' E' G'|? ? k' K' I' E'|? ? k' K' I'|? ? N1' N2']; subst; try (destruct (N2' m); auto; fail)); rewrite <- (kind_in_fun _ _ _ _ K K') in *; try congruence; try contradiction.
    f_equal. rewrite E in E'. injection E' as <-. apply (Z (item_kind k) l); auto. apply assoc_In in E. rewrite Forall_forall in F. apply (F _ E). reflexivity.
Qed.
Lemma listing_is : forall y os os', objects "" y = Some os -> listing "" y os' -> os' = os.
Proof. intros y os os' H L. destruct (proj1 (objects_spec y) "" os) as [L' _]; auto; [left; auto|]. exact (proj1 (listing_fun y) "" os' os L L'). Qed.
