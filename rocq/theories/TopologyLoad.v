(** * Loading all documents: namespaces, registration of endpoints (facts about TopologyModel.v). *)
From Coq Require Import ZArith List Bool Arith Lia String Ascii Permutation.
From Verif Require Import IntervalModel TextModel TextFacts PortProtoModel PeerModel PeerSetFacts PolicyModel YamlModel ClusterModel ServiceModel SidecarModel SelectorFacts
                          TopologyModel TopologyFacts TopologyDocs.
Import ListNotations.
Local Open Scope string_scope.
Local Open Scope list_scope.
Local Open Scope nat_scope.

(** ** Namespaces (specification) *)
(** The Namespace objects of a document: the document itself or the items of a list. *)
Definition has_kind (k : string) (y : yaml) : bool := match y with YMap m => match yget m "kind" with YStr s => String.eqb s k | _ => false end | _ => false end.
Definition items_of (y : yaml) : list yaml := match y with YMap m => ylist (yget m "items") | _ => [] end.
Definition namespaces_in (y : yaml) : list yaml :=
  if has_kind "Namespace" y then [y] else if has_kind "NamespaceList" y then items_of y else if has_kind "List" y then filter (has_kind "Namespace") (items_of y) else [].
Definition names_ns (y : yaml) (t : string) : Prop := exists m md, y = YMap m /\ map_at m "metadata" md /\ text_at md "name" "" t.
(** The object declares the namespace [n] with the name [t]. *)
Definition namespace_as (y : yaml) (t : string) (n : namespace) : Prop :=
  exists m md lm, y = YMap m /\ map_at m "metadata" md /\ text_at md "name" "" t /\ map_at md "labels" lm /\ n_name n = (if String.eqb t "" then "default" else t) /\
    forall k v, assoc_s k (n_labels n) = Some v <-> last_for lm k (YStr v) \/ (~ In k (map fst lm) /\ k = "kubernetes.io/metadata.name" /\ v = t).
(** The namespace that a name stands for, given the Namespace objects: the last of that name. *)
Definition ns_of (objs : list yaml) (t : string) (n : namespace) : Prop :=
  (exists pre y post, objs = pre ++ y :: post /\ namespace_as y t n /\ forall z, In z post -> ~ names_ns z t) \/
  ((forall z, In z objs -> ~ names_ns z t) /\ n = new_namespace t).
(** The endpoints of documents in order; [V docs]: which namespace a name stands for in the last of the documents [docs]. *)
Inductive declared (V : list yaml -> string -> namespace -> Prop) : list yaml -> list endpoint -> Prop :=
| dc_nil : declared V [] []
| dc_snoc : forall docs l y os les, declared V docs l -> listing "" y os ->
    Forall2 (fun o le => declares (V (docs ++ [y])) (fst o) (snd o) le) os les -> declared V (docs ++ [y]) (l ++ List.concat les).
(** In a directory of resources, the Namespace objects so far; if namespaces are given separately, those. *)
Definition so_far (docs : list yaml) : string -> namespace -> Prop := ns_of (flat_map namespaces_in docs).
Definition given (nsdocs : list yaml) (docs : list yaml) : string -> namespace -> Prop := ns_of (flat_map namespaces_in nsdocs).

(** ** Proofs *)
Lemma map_at_fun : forall m k a b, map_at m k a -> map_at m k b -> a = b.
Proof. intros m k a b [A|[A ->]] [B|[B ->]]; congruence. Qed.
Lemma text_at_fun : forall m k d a b, text_at m k d a -> text_at m k d b -> a = b.
Proof. intros m k d a b [A|[A ->]] [B|[B ->]]; congruence. Qed.
Lemma names_ns_fun : forall y t t', names_ns y t -> names_ns y t' -> t = t'.
Proof.
  intros y t t' (m & md & -> & A & B) (m' & md' & [= <-] & A' & B'). rewrite (map_at_fun _ _ _ _ A A') in B. exact (text_at_fun _ _ _ _ _ B B').
Qed.
Definition known (objs : list yaml) (nss : list (string * namespace)) : Prop :=
  forall t, match assoc_s t nss with Some n => ns_of objs t n | None => forall z, In z objs -> ~ names_ns z t end.
Lemma known_ok : forall objs nss, known objs nss -> nss_ok nss.
Proof.
  intros objs nss K t n E. specialize (K t). rewrite E in K. destruct K as [(pre & y & post & _ & (m & md & lm & _ & _ & _ & _ & N & _) & _)|[_ ->]]; auto.
Qed.
Lemma known_adds : forall objs nss nss', known objs nss -> grows nss nss' -> fresh_only nss nss' -> known objs nss'.
Proof.
  intros objs nss nss' K G F t. specialize (K t). destruct (assoc_s t nss') as [n|] eqn:E.
  - destruct (assoc_s t nss) as [n0|] eqn:E0.
    + rewrite (G _ _ E0) in E. injection E as <-. auto.
    + destruct (F _ _ E) as [X|X]; [congruence|]. right. auto.
  - destruct (assoc_s t nss) as [n0|] eqn:E0; [rewrite (G _ _ E0) in E; discriminate|auto].
Qed.
Lemma known_add : forall generic objs nss y nss', known objs nss -> add_namespace generic nss y = Some nss' ->
  known (objs ++ (if generic && negb (has_kind "Namespace" y) then [] else [y])) nss'.
Proof.
  unfold add_namespace. intros generic objs nss y nss' K H. bd H. apply as_map_inv in E. subst y. cbn [has_kind].
  match goal with |- known (_ ++ if ?c then _ else _) _ => destruct c eqn:Ec end.
  - injection H as <-. rewrite app_nil_r. auto.
  - bd H. rename l0 into md. bd H. rename s into name. bd H. rename l0 into lm. bd H. rename l0 into labels. injection H as <-.
    apply sub_spec in E, E1. apply str_spec in E0. destruct (set_labels_spec _ _ _ E2) as [S _].
    assert (NN : names_ns (YMap l) name) by (exists l, md; auto).
    intros t. rewrite assoc_put. destruct (String.eqb_spec t name) as [->|N].
    + left. exists objs, (YMap l), []. split; auto. split; [|intros z []]. exists l, md, lm. split; auto. split; auto. split; auto. split; auto. split; auto. cbn [n_labels]. intros k v. rewrite S. cbn [n_labels new_namespace assoc_s].
      destruct (String.eqb_spec k "kubernetes.io/metadata.name") as [->|Nk].
      * split; (intros [A|[A B]]; [auto|right]); split; auto; [injection B as <-; auto|destruct B as [_ ->]; auto].
      * split; (intros [A|[A B]]; [auto|]); [discriminate|destruct B as [B _]; congruence].
    + specialize (K t). destruct (assoc_s t nss) as [n|].
      * destruct K as [(pre & y & post & -> & A & B)|[A ->]].
        -- left. exists pre, y, (post ++ [YMap l]). rewrite <- app_assoc. split; auto. split; auto. intros z Hz Q. apply in_app_or in Hz as [Hz|[<-|[]]]; [exact (B z Hz Q)|]. exact (N (names_ns_fun _ _ _ Q NN)).
        -- right. split; auto. intros z Hz Q. apply in_app_or in Hz as [Hz|[<-|[]]]; [exact (A z Hz Q)|]. exact (N (names_ns_fun _ _ _ Q NN)).
      * intros z Hz Q. apply in_app_or in Hz as [Hz|[<-|[]]]; [exact (K z Hz Q)|]. exact (N (names_ns_fun _ _ _ Q NN)).
Qed.
Lemma get_items : forall m l, as_list (get_default m "items" (YList [])) = Some l -> items_of (YMap m) = l.
Proof. unfold get_default, items_of, yget. intros m l H. destruct (assoc_s "items" m) as [v|]; [|injection H as <-; auto]. apply as_list_inv in H. subst. auto. Qed.
Lemma known_doc : forall objs nss y nss', known objs nss -> namespace_doc nss y = Some nss' -> known (objs ++ namespaces_in y) nss'.
Proof.
  unfold namespace_doc. intros objs nss y nss' K H.
  destruct y as [| | | | | |m]; try (injection H as <-; cbn; rewrite app_nil_r; auto; fail).
  unfold namespaces_in. cbn [has_kind]. destruct (yget m "kind") as [| | | |k| |] eqn:Ek; try (injection H as <-; rewrite app_nil_r; auto; fail).
  destruct (smem k ["NamespaceList"; "List"]) eqn:El.
  - bd H. apply get_items in E. assert (N : String.eqb k "Namespace" = false) by (destruct (String.eqb_spec k "Namespace") as [->|]; [vm_compute in El; discriminate|auto]). rewrite N, E.
    assert (X : forall generic l objs nss, known objs nss -> fold_left (fun acc y => bind acc (fun nss => add_namespace generic nss y)) l (Some nss) = Some nss' ->
      known (objs ++ (if generic then filter (has_kind "Namespace") l else l)) nss').
    { clear. intros generic. induction l as [|y l IH]; intros objs nss K H; cbn [fold_left bind] in H.
      - injection H as <-. destruct generic; cbn; rewrite app_nil_r; auto.
      - destruct (add_namespace generic nss y) as [n1|] eqn:E; [|rewrite fold_bind_none in H; discriminate]. pose proof (IH _ _ (known_add _ _ _ _ _ K E) H) as Q.
        rewrite <- app_assoc in Q. destruct generic; cbn [andb] in Q; [|exact Q]. cbn [filter]. destruct (has_kind "Namespace" y); exact Q. }
    destruct (String.eqb_spec k "NamespaceList") as [->|N2]; [exact (X _ _ _ _ K H)|].
    assert (k = "List") as ->. { destruct (String.eqb_spec k "List"); auto. exfalso. clear - El N2 n. cbn in El. rewrite !orb_false_r in El. apply orb_true_iff in El as [El|El]; apply String.eqb_eq in El; congruence. }
    exact (X _ _ _ _ K H).
  - assert (N : String.eqb k "NamespaceList" = false /\ String.eqb k "List" = false).
    { split; [destruct (String.eqb_spec k "NamespaceList") as [->|]|destruct (String.eqb_spec k "List") as [->|]]; auto; vm_compute in El; discriminate. }
    destruct N as [-> ->]. destruct (String.eqb k "Namespace") eqn:En; [|injection H as <-; rewrite app_nil_r; auto]. pose proof (known_add _ _ _ _ _ K H) as Q. exact Q.
Qed.
Lemma forall2_impl : forall A B (P Q : A -> B -> Prop), (forall a b, P a b -> Q a b) -> forall l l', Forall2 P l l' -> Forall2 Q l l'.
Proof. intros A B P Q H. induction 1; auto. Qed.
Lemma declared_mono : forall (V V' : list yaml -> string -> namespace -> Prop), (forall d t n, V d t n -> V' d t n) -> forall docs l, declared V docs l -> declared V' docs l.
Proof.
  intros V V' H docs l D. induction D as [|docs l y os les D IH L F]; [constructor|]. econstructor; eauto. eapply forall2_impl; [|exact F]. intros o le. apply declares_mono. auto.
Qed.
(** Namespaces are never removed; each pod's namespace is a key. *)
Lemma add_keeps : forall generic nss y nss' k, add_namespace generic nss y = Some nss' -> assoc_s k nss <> None -> assoc_s k nss' <> None.
Proof.
  unfold add_namespace. intros generic nss y nss' k H N. bd H. match type of H with (if ?c then _ else _) = _ => destruct c end; [injection H as <-; auto|].
  bd H. bd H. bd H. bd H. injection H as <-. rewrite assoc_put. destruct (String.eqb k _); [discriminate|auto].
Qed.
Lemma doc_keeps : forall nss y nss' k, namespace_doc nss y = Some nss' -> assoc_s k nss <> None -> assoc_s k nss' <> None.
Proof.
  unfold namespace_doc. intros nss y nss' k H N. destruct y as [| | | | | |m]; try (injection H as <-; auto; fail). destruct (yget m "kind") as [| | | |s| |]; try (injection H as <-; auto; fail).
  destruct (smem s _); [|destruct (String.eqb s "Namespace"); [exact (add_keeps _ _ _ _ k H N)|injection H as <-; auto]].
  bd H. clear E. revert nss H N. induction l as [|y l IH]; intros nss H N; cbn [fold_left bind] in H; [injection H as <-; auto|].
  destruct (add_namespace (String.eqb s "List") nss y) as [n1|] eqn:E; [|rewrite fold_bind_none in H; discriminate]. exact (IH n1 H (add_keeps _ _ _ _ k E N)).
Qed.
Lemma grows_keeps : forall nss nss' k, grows nss nss' -> assoc_s k nss <> None -> assoc_s k nss' <> None.
Proof. intros nss nss' k G N. destruct (assoc_s k nss) as [n|] eqn:E; [|congruence]. rewrite (G _ _ E). discriminate. Qed.
(** One document. *)
Lemma doc_read : forall nsp objs st y st', known objs (ts_nss st) -> topology_doc nsp true st y = Some st' ->
  let objs' := if nsp : bool then objs ++ namespaces_in y else objs in
  exists os les, listing "" y os /\ Forall2 (fun o le => declares (fun t n => ns_of objs' t n /\ assoc_s t (ts_nss st') <> None) (fst o) (snd o) le) os les /\ steps st (List.concat les) st' /\
    known objs' (ts_nss st') /\ Forall wf_ep (List.concat les) /\ (forall k, assoc_s k (ts_nss st) <> None -> assoc_s k (ts_nss st') <> None).
Proof.
  unfold topology_doc. intros nsp objs st y st' K H. bd H. rename t into st0.
  assert (X : known (if nsp then objs ++ namespaces_in y else objs) (ts_nss st0) /\ steps st [] st0 /\ forall k, assoc_s k (ts_nss st) <> None -> assoc_s k (ts_nss st0) <> None).
  { destruct nsp; [|injection E as <-; split; auto; split; auto; apply steps_nil; auto]. bd E. injection E as <-. split; [exact (known_doc _ _ _ _ K E0)|]. split; [apply steps_nil; auto|]. intros k. exact (doc_keeps _ _ _ k E0). }
  destruct X as (K0 & S0 & KK). set (objs' := if nsp then objs ++ namespaces_in y else objs) in *. cbv zeta. bd H. rename t into st1.
  destruct (endpoints_read _ _ _ (known_ok _ _ K0) E0) as (os & les & L & D & A). pose proof (services_read _ _ _ (ad_ok _ _ _ A) H) as A2.
  assert (K1 : known objs' (ts_nss st1)) by (apply (known_adds _ _ _ K0); apply A). assert (K2 : known objs' (ts_nss st')) by (apply (known_adds _ _ _ K1); apply A2).
  exists os, les. split; auto. split; [|split; [|split; [auto|split]]].
  - eapply forall2_impl; [|exact D]. intros o le. apply declares_mono. intros t n V. specialize (K1 t). unfold dict_view in V. rewrite V in K1. split; auto. apply (grows_keeps _ _ t (ad_grows _ _ _ A2)). congruence.
  - change (List.concat les) with ([] ++ List.concat les). eapply steps_app; [exact S0|]. rewrite <- (app_nil_r (List.concat les)). eapply steps_app; [apply A|apply A2].
  - rewrite Forall_forall. apply A.
  - intros k N. apply (grows_keeps _ _ k (ad_grows _ _ _ A2)). apply (grows_keeps _ _ k (ad_grows _ _ _ A)). auto.
Qed.
Lemma fold_snoc_inv : forall A B (f : A -> B -> option A) l x a r, fold_left (fun acc b => bind acc (fun a => f a b)) (l ++ [x]) (Some a) = Some r ->
  exists m, fold_left (fun acc b => bind acc (fun a => f a b)) l (Some a) = Some m /\ f m x = Some r.
Proof. intros A B f l x a r H. rewrite fold_left_app in H. cbn in H. bd H. eauto. Qed.
Lemma load_read : forall nsp objs st0, known objs (ts_nss st0) -> ts_peers st0 = [] -> ts_counts st0 = [] -> forall docs st, load nsp true st0 docs = Some st ->
  exists l, declared (fun d t n => ns_of (objs ++ if nsp : bool then flat_map namespaces_in d else []) t n /\ assoc_s t (ts_nss st) <> None) docs l /\ registered (ts_peers st) (ts_counts st) l /\ Forall wf_ep l /\
    known (objs ++ if nsp then flat_map namespaces_in docs else []) (ts_nss st).
Proof.
  intros nsp objs st0 K P0 C0. set (f := fun d => objs ++ if nsp : bool then flat_map namespaces_in d else []). induction docs as [|y docs IH] using rev_ind; intros st H.
  - injection H as <-. exists []. split; [constructor|]. rewrite P0, C0. split; [apply registered_nil|]. split; auto. cbn. replace (objs ++ (if nsp then [] else [])) with objs by (destruct nsp; rewrite app_nil_r; auto). auto.
  - apply fold_snoc_inv in H as (st1 & H1 & H2). destruct (IH st1 H1) as (l & D & R & W & K1).
    destruct (doc_read nsp _ _ _ _ K1 H2) as (os & les & L & Ds & S & K2 & W2 & M). cbv zeta in *.
    assert (E : (if nsp then (objs ++ (if nsp then flat_map namespaces_in docs else [])) ++ namespaces_in y else objs ++ (if nsp then flat_map namespaces_in docs else [])) = f (docs ++ [y])).
    { unfold f. destruct nsp; auto. rewrite flat_map_app, app_assoc. cbn. rewrite app_nil_r. auto. }
    rewrite E in *. exists (l ++ List.concat les). split; [econstructor; eauto; eapply declared_mono; [|exact D]; cbn; intros d t n [V1 V2]; auto|]. split; [apply (steps_registered _ _ _ S); auto|]. split; [apply Forall_app; auto|]. auto.
Qed.
Lemma known_nil : known [] [].
Proof. intros t. cbn. auto. Qed.
Lemma load_ns_read : forall objs docs st0 st, known objs (ts_nss st0) -> load true false st0 docs = Some st ->
  known (objs ++ flat_map namespaces_in docs) (ts_nss st) /\ ts_peers st = ts_peers st0 /\ ts_counts st = ts_counts st0.
Proof.
  intros objs docs st0. induction docs as [|y docs IH] using rev_ind; intros st K H.
  - injection H as <-. cbn. rewrite app_nil_r. auto.
  - apply fold_snoc_inv in H as (st1 & H1 & H2). destruct (IH st1 K H1) as (K1 & E1 & E2). unfold topology_doc in H2. bd H2. bd E. injection E as <-. injection H2 as <-.
    rewrite flat_map_app, app_assoc. cbn [flat_map]. rewrite app_nil_r. split; [exact (known_doc _ _ _ _ K1 E0)|]. auto.
Qed.
Theorem resources_read : forall docs st, load_resources docs = Some st ->
  exists l, declared (fun d t n => so_far d t n /\ assoc_s t (ts_nss st) <> None) docs l /\ registered (ts_peers st) (ts_counts st) l /\ Forall wf_ep l /\ known (flat_map namespaces_in docs) (ts_nss st).
Proof. intros docs st H. exact (load_read true [] tstate0 known_nil eq_refl eq_refl docs st H). Qed.
Theorem lists_read : forall nsdocs docs st, load_lists nsdocs docs = Some st ->
  exists l, declared (fun d t n => given nsdocs d t n /\ assoc_s t (ts_nss st) <> None) docs l /\ registered (ts_peers st) (ts_counts st) l /\ Forall wf_ep l /\ known (flat_map namespaces_in nsdocs) (ts_nss st).
Proof.
  unfold load_lists. intros nsdocs docs st H. bd H. destruct (load_ns_read [] nsdocs tstate0 t known_nil E) as (K & E1 & E2). cbn [app] in K.
  destruct (load_read false _ t K E1 E2 docs st H) as (l & D & R). exists l. cbn in *. rewrite !app_nil_r in *. auto.
Qed.
(** ** Services *)
Definition services_in (y : yaml) : list yaml := if has_kind "List" y then filter (has_kind "Service") (items_of y) else if has_kind "Service" y then [y] else [].
(** The Service objects read by parse_service; [None]: not a service of Kubernetes. *)
Inductive services_read_as : list yaml -> list k8s_service -> Prop :=
| sr_nil : services_read_as [] []
| sr_some : forall y s ys l, parse_service y = Some (Some s) -> services_read_as ys l -> services_read_as (y :: ys) (s :: l)
| sr_none : forall y ys l, parse_service y = Some None -> services_read_as ys l -> services_read_as (y :: ys) l.
Lemma sr_app : forall a la b lb, services_read_as a la -> services_read_as b lb -> services_read_as (a ++ b) (la ++ lb).
Proof. induction 1; intros H'; cbn; auto; constructor; auto. Qed.
Lemma fold_services : forall A (l : list A) (f : tstate -> A -> tstate) st, (forall st a, ts_services (f st a) = ts_services st) -> ts_services (fold_left f l st) = ts_services st.
Proof. induction l as [|a l IH]; intros f st H; cbn; auto. rewrite IH; auto. Qed.
Lemma endpoint_services : forall st e, ts_services (add_endpoint st e) = ts_services st.
Proof. intros. unfold add_endpoint. destruct (2 <=? _); reflexivity. Qed.
Lemma fold_bind_services : forall A (l : list A) (f : tstate -> A -> option tstate) st st', (forall st a st', f st a = Some st' -> ts_services st' = ts_services st) ->
  fold_left (fun acc a => bind acc (fun st => f st a)) l (Some st) = Some st' -> ts_services st' = ts_services st.
Proof.
  induction l as [|a l IH]; intros f st st' H E; cbn in E; [injection E as <-; auto|]. destruct (f st a) as [s1|] eqn:E1; [|rewrite fold_bind_none in E; discriminate]. rewrite (IH f s1 st' H E). eauto.
Qed.
Lemma object_services : forall st o st', add_object st o = Some st' -> ts_services st' = ts_services st.
Proof.
  intros st [k m] st' H. unfold add_object in H. destruct (String.eqb k "Pod").
  { unfold add_pod in H. bd H. bd H. bd H. destruct (get_namespace _ _) as [nss n]. bd H. bd H. bd H. bd H. bd H. bd H. injection H as <-. rewrite endpoint_services. reflexivity. }
  destruct (smem k creation_kinds).
  { unfold add_workload in H. bd H. bd H. bd H. destruct (get_namespace _ _) as [nss n]. bd H. bd H. match type of H with (if ?c then _ else _) = _ => destruct c end; [injection H as <-; reflexivity|].
    bd H. bd H. bd H. bd H. apply fold_bind_services in H; [exact H|]. clear. intros st i st' H. bd H. bd H. bd H. bd H. injection H as <-. apply endpoint_services. }
  destruct (String.eqb k "WorkloadEndpoint").
  { unfold add_wep in H. bd H. bd H. bd H. destruct (get_namespace _ _) as [nss n]. bd H. bd H. bd H. bd H. bd H. injection H as <-. rewrite endpoint_services. reflexivity. }
  destruct (String.eqb k "HostEndpoint").
  { unfold add_hep in H. bd H. bd H. bd H. bd H. bd H. bd H. bd H. injection H as <-. rewrite endpoint_services. reflexivity. }
  destruct (smem k _); [discriminate|]. destruct (String.eqb k "ServiceEntry"); [|injection H as <-; auto].
  unfold add_entries in H. bd H. injection H as <-. apply fold_services. intros. apply endpoint_services.
Qed.
Lemma service_services : forall st y st', add_service st y = Some st' -> exists l, services_read_as [y] l /\ ts_services st' = ts_services st ++ l.
Proof.
  unfold add_service. intros st y st' H. bd H. destruct o as [s|]; injection H as <-; [exists [s]|exists []; rewrite app_nil_r]; (split; [|reflexivity]); constructor; auto; constructor.
Qed.
Lemma doc_services : forall st y st', services_doc st y = Some st' -> exists l, services_read_as (services_in y) l /\ ts_services st' = ts_services st ++ l.
Proof.
  assert (Z : forall st : tstate, exists l, services_read_as [] l /\ ts_services st = ts_services st ++ l) by (intros st; exists []; rewrite app_nil_r; split; [constructor|auto]).
  unfold services_doc, services_in. intros st y st' H. destruct y as [| | | | | |m]; try (injection H as <-; apply Z). cbn [has_kind]. destruct (yget m "kind") as [| | | |s| |]; try (injection H as <-; apply Z).
  destruct (String.eqb s "List").
  - bd H. apply get_items in E. rewrite E. clear E. revert st H. induction l as [|y l IH]; intros st H; cbn [fold_left bind] in H; [injection H as <-; apply Z|].
    match type of H with fold_left ?f l ?x = _ => destruct x as [st1|] eqn:E; [|rewrite fold_bind_none in H; discriminate] end.
    destruct (IH st1 H) as (l2 & R2 & E2). change (match y with YMap m0 => match yget m0 "kind" with YStr k => (k =? "Service")%string | _ => false end | _ => false end) with (has_kind "Service" y) in E.
    cbn [filter]. destruct (has_kind "Service" y).
    + destruct (service_services _ _ _ E) as (l1 & R1 & E1). exists (l1 ++ l2). split; [exact (sr_app [y] l1 _ l2 R1 R2)|]. rewrite E2, E1, app_assoc. auto.
    + injection E as <-. exists l2. auto.
  - destruct (String.eqb s "Service"); [apply service_services; auto|injection H as <-; apply Z].
Qed.
Lemma load_services : forall nsp docs st0 st, load nsp true st0 docs = Some st -> exists l, services_read_as (flat_map services_in docs) l /\ ts_services st = ts_services st0 ++ l.
Proof.
  intros nsp. induction docs as [|y docs IH] using rev_ind; intros st0 st H.
  - injection H as <-. exists []. rewrite app_nil_r. split; [constructor|auto].
  - apply fold_snoc_inv in H as (st1 & H1 & H2). destruct (IH st0 st1 H1) as (l & R & E). unfold topology_doc in H2. bd H2. rename t into st2. assert (E2 : ts_services st2 = ts_services st1).
    { destruct nsp; [|injection E0 as <-; auto]. bd E0. injection E0 as <-. reflexivity. }
    bd H2. rename t into st3. assert (E4 : ts_services st3 = ts_services st2).
    { unfold endpoints_doc in E1. bd E1. apply fold_bind_services in E1; auto. apply object_services. }
    destruct (doc_services _ _ _ H2) as (l' & R' & E'). exists (l ++ l'). rewrite flat_map_app. cbn [flat_map]. rewrite app_nil_r. split; [apply sr_app; auto|]. rewrite E', E4, E2, E, app_assoc. auto.
Qed.
Theorem services_of_documents : forall docs st, load_resources docs = Some st \/ (exists nsdocs, load_lists nsdocs docs = Some st) -> services_read_as (flat_map services_in docs) (ts_services st).
Proof.
  intros docs st [H|(nsdocs & H)].
  - destruct (load_services _ _ _ _ H) as (l & R & E). cbn in E. rewrite E. auto.
  - unfold load_lists in H. bd H. destruct (load_services _ _ _ _ H) as (l & R & E2). assert (ts_services t = []); [|rewrite E2, H0; auto].
    clear - E. revert t E. induction nsdocs as [|y docs IH] using rev_ind; intros st H; [injection H as <-; auto|]. apply fold_snoc_inv in H as (st1 & H1 & H2). unfold topology_doc in H2. bd H2. bd E. injection E as <-. injection H2 as <-. exact (IH _ H1).
Qed.
