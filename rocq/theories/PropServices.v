(** * C57: the target pods of Kubernetes Services. *)
From Coq Require Import ZArith List Bool Arith Lia String Ascii.
From Verif Require Import IntervalModel TextModel TextFacts PortProtoModel PeerModel PeerFacts PeerSetFacts PolicyModel PolicyLaws YamlModel ClusterModel K8sParserModel SelectorFacts
                          PropSelectors K8sParserFacts CalicoSelectorSets PropK8sParser ServiceModel.
Import ListNotations.
Local Open Scope string_scope.
Local Open Scope list_scope.
Local Open Scope nat_scope.

(** ** What a document says (independent of the parser) *)
Definition svc_doc (y : yaml) (name ns : string) (sp : list (string * yaml)) : Prop :=
  exists m md, y = YMap m /\ yget m "kind" = YStr "Service" /\ yget m "apiVersion" = YStr "v1" /\ yget m "metadata" = YMap md /\
    yget md "name" = YStr name /\ yget m "spec" = YMap sp /\ sp <> [] /\ (yget md "namespace" = YStr ns /\ ns <> "" \/ assoc_s "namespace" md = None /\ ns = "default").
Definition port_entry (sp : list (string * yaml)) (m : list (string * yaml)) : Prop :=
  exists l, yget sp "ports" = YList l /\ In (YMap m) l /\ ytrue (yget m "port") = true.
Definition port_name (m : list (string * yaml)) : option string := match assoc_s "name" m with Some (YStr s) => Some s | Some _ => None | None => Some "" end.
(** The pod defines the named target port of the entry, with the protocol of the entry (TCP if it does not say); numbers always fit. *)
Definition port_fits (cl : cluster) (q : peer) (m : list (string * yaml)) : Prop :=
  forall t, yget m "targetPort" = YStr t -> exists num pr s, assoc_s t (cl_ports cl q) = Some (num, pr) /\
    (yget m "protocol" = YStr s \/ assoc_s "protocol" m = None /\ s = "TCP") /\ get_protocol_number (ProtoName s) = Some pr.
(** The target pods: in the namespace of the service, with all labels of its selector (which is not empty) and its named ports. *)
Definition targets (cl : cluster) (y : yaml) (q : peer) : Prop :=
  exists name ns sp, svc_doc y name ns sp /\ In q (cl_peers cl) /\ cl_ns cl q = Some ns /\
    (exists kv t, yget sp "selector" = YMap (kv :: t) /\ forall k v, In (k, v) (kv :: t) -> exists w, v = YStr w /\ pod_has cl q k w) /\
    forall m, port_entry sp m -> port_fits cl q m.
(** The names of the ports differ, as Kubernetes demands. *)
Definition port_names_differ (y : yaml) : Prop := forall name ns sp l, svc_doc y name ns sp -> yget sp "ports" = YList l ->
  forall pre m1 mid m2 post, l = pre ++ YMap m1 :: mid ++ YMap m2 :: post -> ytrue (yget m1 "port") = true -> ytrue (yget m2 "port") = true -> port_name m1 <> port_name m2.

Section Targets.
Context (cl : cluster) (Hc : cluster_ok cl).
Definition sport_fits (q : peer) (p : sport) : Prop := has_target_port cl q p = true.
Lemma sel_fold : forall sel ns acc r, plain acc ->
  fold_left (fun acc kv => bind acc (fun r => ps_inter r (match snd kv with YStr v => peers_with_label cl (fst kv) [v] FIn (Some ns) | _ => [] end))) sel (Some acc) = Some r ->
  plain r /\ forall q, In q r <-> In q acc /\ forall k v, In (k, v) sel -> exists w, v = YStr w /\ In q (cl_peers cl) /\ cl_ns cl q = Some ns /\ pod_has cl q k w.
Proof using Hc.
  assert (NN : forall ns sel, fold_left (fun acc kv => bind acc (fun r => ps_inter r (match snd kv with YStr v => peers_with_label cl (fst kv) [v] FIn (Some ns) | _ => [] end))) sel None = None)
    by (intros ns sel; induction sel; cbn; auto).
  induction sel as [|[k0 v0] sel IH]; intros ns acc r P E.
  - cbn in E. injection E as <-. split; auto. intros q. split; [intros H; split; auto; intros k v []|tauto].
  - cbn [fold_left bind fst snd] in E.
    set (s := match v0 return peerset with YStr v => peers_with_label cl k0 [v] FIn (Some ns) | _ => [] end) in *.
    assert (Ps : plain s /\ forall q, In q s <-> exists w, v0 = YStr w /\ In q (cl_peers cl) /\ cl_ns cl q = Some ns /\ pod_has cl q k0 w).
    { unfold s. destruct v0 as [| | | |v| |]; try (split; [intros q []|]; intros q; split; [intros []|intros (w & E0 & _); discriminate]).
      split; [apply select_plain; apply cluster_plain; auto|]. intros q. unfold peers_with_label. rewrite select_In. rewrite andb_true_iff, orb_true_iff, !get_in_spec. unfold pod_has, ns_is. split.
      - intros (H1 & H2 & H3). exists v. split; auto. split; auto. split; [destruct (cl_ns cl q); cbn in H2; [apply String.eqb_eq in H2; congruence|discriminate]|].
        destruct H3 as [(u & E1 & [->|[]])|(u & E1 & [->|[]])]; auto.
      - intros (w & E0 & H1 & H2 & H3). injection E0 as <-. split; auto. rewrite H2. split; [apply String.eqb_refl|]. destruct H3 as [H3|H3]; [left|right]; exists v; split; auto; left; auto. }
    destruct Ps as [Ps Ms]. destruct (plain_inter acc s P Ps) as (r1 & E1 & P1 & M1). rewrite E1 in E. destruct (IH ns r1 r P1 E) as [P2 M2]. split; auto. intros q. rewrite M2, M1, Ms. split.
    + intros [[H1 H2] H3]. split; auto. intros k v [H|H]; [injection H as <- <-; auto|auto].
    + intros [H1 H2]. split; [split; [auto|apply (H2 k0 v0 (or_introl eq_refl))]|]. intros k v H. apply H2. right. auto.
Qed.
Lemma port_fold : forall ports acc r, plain acc ->
  fold_left (fun acc p => bind acc (fun r => ps_diff r (filter (fun q => negb (has_target_port cl q p)) r))) ports (Some acc) = Some r ->
  plain r /\ forall q, In q r <-> In q acc /\ forall p, In p ports -> sport_fits q p.
Proof using.
  assert (NN : forall ports, fold_left (fun acc p => bind acc (fun r => ps_diff r (filter (fun q => negb (has_target_port cl q p)) r))) ports None = None) by (induction ports; cbn; auto).
  induction ports as [|p ports IH]; intros acc r P E.
  - cbn in E. injection E as <-. split; auto. intros q. split; [intros H; split; auto; intros x []|tauto].
  - cbn [fold_left bind] in E. set (f := filter (fun q => negb (has_target_port cl q p)) acc) in *.
    assert (Pf : plain f) by (intros q H; apply filter_In in H as [H _]; auto). destruct (plain_diff acc f P Pf) as (r1 & E1 & P1 & M1). rewrite E1 in E.
    destruct (IH r1 r P1 E) as [P2 M2]. split; auto. intros q. rewrite M2, M1. unfold f. rewrite filter_In, negb_true_iff. unfold sport_fits. split.
    + intros [[H1 H2] H3]. split; auto. intros x [<-|H]; auto. destruct (has_target_port cl q p); tauto.
    + intros [H1 H2]. split; [split; auto|]; [|intros x H; apply H2; right; auto]. intros [_ H]. rewrite (H2 p (or_introl eq_refl)) in H. discriminate.
Qed.
Lemma target_pods_spec : forall s r, target_pods cl s = Some r -> plain r /\ forall q, In q r <->
  In q (cl_peers cl) /\ cl_ns cl q = Some (ks_ns s) /\ ks_selector s <> [] /\ (forall k v, In (k, v) (ks_selector s) -> exists w, v = YStr w /\ pod_has cl q k w) /\
  forall p, In p (ks_ports s) -> sport_fits q p.
Proof using Hc.
  intros s r E. unfold target_pods in E. match type of E with bind ?e _ = _ => destruct e as [r0|] eqn:E0; [|discriminate] end. cbn [bind] in E.
  set (acc := match ks_selector s with [] => [] | _ => cl_peers cl end) in *.
  assert (Pa : plain acc) by (unfold acc; destruct (ks_selector s); [intros q []|apply cluster_plain; auto]).
  destruct (sel_fold _ _ _ _ Pa E0) as [P0 M0]. destruct (port_fold _ _ _ P0 E) as [P1 M1]. split; auto. intros q. rewrite M1, M0. unfold acc. destruct (ks_selector s) as [|[k0 v0] sel].
  - cbn. tauto.
  - split.
    + intros [[H1 H2] H3]. split; auto. destruct (H2 k0 v0 (or_introl eq_refl)) as (w & _ & _ & Hn & _). split; auto. split; [discriminate|]. split; auto.
      intros k v H. destruct (H2 k v H) as (w' & Ew & _ & _ & Hw). exists w'. auto.
    + intros (H1 & H2 & _ & H3 & H4). split; auto. split; auto. intros k v H. destruct (H3 k v H) as (w & Ew & Hw). exists w. auto.
Qed.
End Targets.

(** ** Documents *)
Lemma ostr_eqb_eq : forall a b, ostr_eqb a b = true <-> a = b.
Proof. intros [a|] [b|]; cbn; split; intros H; try discriminate; auto; [apply String.eqb_eq in H; congruence|injection H as ->; apply String.eqb_refl]. Qed.
(** The port object of an entry. *)
Definition port_of (m : list (string * yaml)) (p : sport) : Prop :=
  sp_name p = port_name m /\ sp_protocol p = (match assoc_s "protocol" m with Some v => v | None => YStr "TCP" end) /\
  sp_target p = (match assoc_s "targetPort" m with Some v => v | None => yget m "port" end) /\
  sp_number p = yget m "port".
Lemma parse_sport_inv : forall ps y ps', parse_sport ps y = Some ps' -> exists m, y = YMap m /\
  (ps' = ps /\ (ytrue (yget m "port") = false \/ exists p, In p ps /\ sp_name p = port_name m) \/
   ytrue (yget m "port") = true /\ (forall z, yget m "port" <> YStr z) /\ exists p, ps' = ps ++ [p] /\ port_of m p).
Proof.
  intros ps y ps' E. unfold parse_sport in E. destruct (check_fields y _) as [m|] eqn:Ec; [|discriminate]. cbn [bind] in E. apply check_fields_map in Ec as [-> F]. exists m. split; auto.
  destruct (ytrue (yget m "port")) eqn:T; cbn [negb] in E; [|injection E as <-; auto].
  cbv zeta in E. fold (port_name m) in E. destruct (existsb _ ps) eqn:Ex.
  - injection E as <-. left. split; auto. right. apply existsb_exists in Ex as (p & H1 & H2). apply ostr_eqb_eq in H2. exists p. auto.
  - injection E as <-. right. split; auto. split; [|eexists; split; [reflexivity|]; repeat split].
    pose proof (field_of m _ (Field "port" Optional (Some TyInt) None) F (or_introl eq_refl)) as X. unfold field_ok in X. cbn [f_key f_usage f_type f_values] in X.
    unfold yget in T |- *. destruct (assoc_s "port" m) as [v|]; [|discriminate]. destruct v; intros z; try discriminate; try (apply andb_true_iff in X as [X _]; discriminate).
Qed.
Section Documents.
Context (cl : cluster) (Hc : cluster_ok cl).
Lemma ports_inv : forall l ps ps', fold_left (fun acc p => bind acc (fun ps => parse_sport ps p)) l (Some ps) = Some ps' ->
  (forall p, In p ps' -> In p ps \/ exists m, In (YMap m) l /\ ytrue (yget m "port") = true /\ (forall z, yget m "port" <> YStr z) /\ port_of m p) /\
  (forall p, In p ps -> In p ps') /\
  forall pre m post, l = pre ++ YMap m :: post -> ytrue (yget m "port") = true -> (forall p, In p ps -> sp_name p <> port_name m) ->
    (forall m', In (YMap m') pre -> ytrue (yget m' "port") = true -> port_name m' <> port_name m) -> exists p, In p ps' /\ port_of m p.
Proof using.
  assert (NN : forall l, fold_left (fun acc p => bind acc (fun ps => parse_sport ps p)) l None = None) by (induction l; cbn; auto).
  induction l as [|y l IH]; intros ps ps' E.
  - cbn in E. injection E as <-. split; auto. split; auto. intros [|? ?] m post H; discriminate.
  - cbn [fold_left bind] in E. destruct (parse_sport ps y) as [ps1|] eqn:E1; [|rewrite NN in E; discriminate]. destruct (parse_sport_inv ps y ps1 E1) as (m0 & -> & D).
    destruct (IH ps1 ps' E) as (I1 & I2 & I3). split; [|split].
    + intros p H. apply I1 in H as [H|(m & H & H')]; [|right; exists m; split; [right|]; auto].
      destruct D as [[-> _]|(T & Z & p0 & -> & P0)]; auto. apply in_app_or in H as [H|[<-|[]]]; auto. right. exists m0. split; [left|]; auto.
    + intros p H. apply I2. destruct D as [[-> _]|(T & Z & p0 & -> & P0)]; auto. apply in_or_app; auto.
    + intros pre m post El T N1 N2. destruct pre as [|y0 pre].
      * injection El as -> ->. destruct D as [[-> [D|(p & D1 & D2)]]|(_ & _ & p0 & -> & P0)]; [congruence|destruct (N1 p D1 D2)|]. exists p0. split; auto. apply I2. apply in_or_app. cbn. auto.
      * injection El as <- ->. apply (I3 pre m post eq_refl T).
        -- intros p H. destruct D as [[-> _]|(T0 & _ & p0 & -> & P0)]; auto. apply in_app_or in H as [H|[<-|[]]]; auto. destruct P0 as (-> & _). apply N2; auto. cbn. auto.
        -- intros m' H. apply N2. cbn. auto.
Qed.
Lemma fits_iff : forall q m p, port_of m p -> (forall z, yget m "port" <> YStr z) -> (has_target_port cl q p = true <-> port_fits cl q m).
Proof using.
  intros q m p (_ & Ep & Et & _) Ez. unfold has_target_port, port_fits. rewrite Et, Ep. unfold yget at 2.
  destruct (assoc_s "targetPort" m) as [v|]; [|destruct (yget m "port") as [| | | |t| |]; try (split; [discriminate|auto]); destruct (Ez t); auto].
  destruct v as [| | | |t| |]; try (split; [discriminate|auto]; fail). split.
  - intros H t' E. injection E as <-. destruct (assoc_s t (cl_ports cl q)) as [[num pr]|]; [|discriminate].
    unfold yget. destruct (assoc_s "protocol" m) as [w|]; [destruct w as [| | | |s| |]; try discriminate|].
    + exists num, pr, s. split; auto. split; auto. destruct (get_protocol_number (ProtoName s)) as [n|]; [|discriminate]. apply Z.eqb_eq in H. congruence.
    + exists num, pr, "TCP". split; auto. split; auto. destruct (get_protocol_number (ProtoName "TCP")) as [n|]; [|discriminate]. apply Z.eqb_eq in H. congruence.
  - intros H. destruct (H t eq_refl) as (num & pr & s & E1 & E2 & E3). rewrite E1. destruct E2 as [E2|[E2 ->]].
    + unfold yget in E2. destruct (assoc_s "protocol" m); [|discriminate]. subst y. rewrite E2. rewrite E3. apply Z.eqb_refl.
    + rewrite E2. cbv iota beta. rewrite E3. apply Z.eqb_refl.
Qed.
Lemma service_inv : forall y ks, parse_service y = Some (Some ks) -> exists sp, svc_doc y (ks_name ks) (ks_ns ks) sp /\
  (yget sp "selector" = YMap (ks_selector ks) \/ ks_selector ks = [] /\ forall kv t, yget sp "selector" <> YMap (kv :: t)) /\
  (yget sp "ports" = YNull /\ ks_ports ks = [] \/
   exists l, yget sp "ports" = YList l /\ fold_left (fun acc p => bind acc (fun ps => parse_sport ps p)) l (Some []) = Some (ks_ports ks)).
Proof using.
  intros y ks E. unfold parse_service in E. match type of E with bind ?e _ = _ => destruct e as [o|] eqn:Eg; [|discriminate] end. cbn [bind] in E.
  unfold parse_generic in Eg. destruct y as [| | | | | |m0]; try discriminate.
  destruct (negb (among _ (yget m0 "kind"))) eqn:Ek; [injection Eg as <-; discriminate|].
  destruct (yget m0 "apiVersion") as [| | | |v|l|d] eqn:Ev; try discriminate; [|destruct (existsb _ _); [discriminate|injection Eg as <-; discriminate]|destruct (existsb _ _); [discriminate|injection Eg as <-; discriminate]].
  destruct (negb (existsb _ _)) eqn:Ex; [injection Eg as <-; discriminate|].
  match type of Eg with bind ?e _ = _ => destruct e as [mm|] eqn:Ec; [|discriminate] end. cbn [bind] in Eg. apply check_fields_map in Ec as [Em F]. injection Em as <-.
  destruct (check_fields (yget m0 "metadata") metadata_fields) as [md|] eqn:Ed; [|discriminate]. cbn [bind] in Eg. apply check_fields_map in Ed as [Ed Fm].
  destruct (yget md "name") as [| | | |nm| |] eqn:Enm; try discriminate. injection Eg as <-.
  apply negb_false_iff in Ek. destruct (yget m0 "kind") as [| | | |kind| |] eqn:Ekd; try discriminate.
  assert (Hkind : kind = "Service") by (apply smem_In in Ek; destruct Ek as [<-|[]]; reflexivity). subst kind.
  assert (Hv : v = "v1").
  { pose proof (field_of m0 _ (Field "apiVersion" Mandatory (Some TyStr) (Some (among ["v1"]))) F) as X. specialize (X (or_intror (or_introl eq_refl))).
    unfold field_ok in X. cbn [f_key f_usage f_type f_values] in X. unfold yget in Ev. destruct (assoc_s "apiVersion" m0) as [v0|]; [|discriminate]. subst v0.
    apply andb_true_iff in X as [_ X]. apply orb_true_iff in X as [X|X].
    - cbn in X. apply negb_true_iff, negb_false_iff, String.eqb_eq in X. subst v. discriminate Ex.
    - apply smem_In in X. destruct X as [<-|[]]. reflexivity. }
  subst v. set (nsy := match assoc_s "namespace" md with Some v0 => v0 | None => YStr "default" end) in *. destruct nsy as [| | | |ns| |] eqn:En; try discriminate.
  destruct (String.eqb_spec ns "") as [Qn|Qn]; [discriminate|].
  destruct (yget m0 "spec") as [| | | | | |[|kv t]] eqn:Esp; try discriminate.
  match type of E with bind ?e _ = _ => destruct e as [sel|] eqn:Esel; [|discriminate] end. cbn [bind] in E.
  match type of E with bind ?e _ = _ => destruct e as [ports|] eqn:Epo; [|discriminate] end. cbn [bind] in E. injection E as <-. cbn [ks_name ks_ns ks_selector ks_ports].
  exists (kv :: t). split; [|split].
  - exists m0, md. split; auto. split; auto. split; auto. split; auto. split; auto. split; auto. split; [discriminate|]. unfold nsy in En. unfold yget.
    destruct (assoc_s "namespace" md) as [v0|]; [subst v0; auto|]. injection En as <-. auto.
  - destruct (yget (kv :: t) "selector") as [| | | | | |sl]; cbn in Esel;
      first [injection Esel as <-; left; reflexivity
            |destruct (ytrue _) eqn:T in Esel; [discriminate|injection Esel as <-; right; split; [reflexivity|discriminate]]
            |injection Esel as <-; right; split; [reflexivity|discriminate]
            |idtac]; try (destruct b; [discriminate|injection Esel as <-; right; split; [reflexivity|discriminate]]);
      match type of Esel with (if ?c then _ else _) = _ => destruct c; [discriminate|injection Esel as <-; right; split; [reflexivity|discriminate]] end.
  - destruct (yget (kv :: t) "ports") as [| | | | |l|]; try discriminate; [injection Epo as <-; auto|]. right. exists l. auto.
Qed.
Lemma svc_doc_fn : forall y n s sp n' s' sp', svc_doc y n s sp -> svc_doc y n' s' sp' -> n' = n /\ s' = s /\ sp' = sp.
Proof using.
  intros y n s sp n' s' sp' (m & md & -> & E1 & E2 & E3 & E4 & E5 & _ & E6) (m' & md' & E & F1 & F2 & F3 & F4 & F5 & _ & F6). injection E as <-.
  rewrite E3 in F3. injection F3 as <-. rewrite E4 in F4. injection F4 as <-. rewrite E5 in F5. injection F5 as <-. split; auto. split; auto.
  unfold yget in *. destruct (assoc_s "namespace" md); destruct E6 as [[A1 A2]|[A1 A2]], F6 as [[B1 B2]|[B1 B2]]; congruence.
Qed.
(** The target pods of a parsed service. *)
Theorem C57_target_pods : forall y ks r, parse_service y = Some (Some ks) -> target_pods cl ks = Some r -> port_names_differ y ->
  forall q, In q r <-> targets cl y q.
Proof using Hc.
  intros y ks r E Et PD q. destruct (service_inv y ks E) as (sp & D & Sel & Po). destruct (target_pods_spec cl Hc ks r Et) as [_ M]. rewrite M.
  assert (PE : (forall p, In p (ks_ports ks) -> sport_fits cl q p) <-> forall m, port_entry sp m -> port_fits cl q m).
  { destruct Po as [[Ep ->]|(l & Ep & Ef)].
    - split; [intros _ m (l & El & _); congruence|intros _ p []].
    - destruct (ports_inv l [] (ks_ports ks) Ef) as (I1 & _ & I3). split.
      + intros H m (l' & El & Hm & T). rewrite Ep in El. injection El as <-. destruct (in_split _ _ Hm) as (pre & post & Es).
        destruct (I3 pre m post Es T) as (p & Hp & Pp); [intros p []| |].
        * intros m' H' T'. destruct (in_split _ _ H') as (p1 & p2 & ->). apply (PD _ _ _ l D Ep p1 m' p2 m post); auto. rewrite Es, <- app_assoc. reflexivity.
        * assert (Z : forall z, yget m "port" <> YStr z).
          { destruct (I1 p Hp) as [[]|(m1 & H1 & T1 & Z1 & P1)]. clear - Es Ef T. assert (X : exists ps ps', parse_sport ps (YMap m) = Some ps').
            { subst l. revert Ef. generalize (@nil sport). induction pre as [|y0 pre IH]; intros ps E; cbn [app fold_left bind] in E.
              - destruct (parse_sport ps (YMap m)) as [ps'|] eqn:E1; [exists ps, ps'; auto|]. exfalso. clear - E. induction post; cbn in E; [discriminate|auto].
              - destruct (parse_sport ps y0) as [ps'|]; [apply (IH ps' E)|]. exfalso. clear - E. induction (pre ++ YMap m :: post); cbn in E; [discriminate|auto]. }
            destruct X as (ps & ps' & X). unfold parse_sport in X. destruct (check_fields (YMap m) _) as [mm|] eqn:Ec; [|discriminate]. apply check_fields_map in Ec as [Em F]. injection Em as <-.
            pose proof (field_of m _ (Field "port" Optional (Some TyInt) None) F (or_introl eq_refl)) as Y. unfold field_ok in Y. cbn [f_key f_usage f_type f_values] in Y.
            unfold yget in T |- *. destruct (assoc_s "port" m) as [v|]; [|discriminate]. destruct v; intros z; try discriminate; try (apply andb_true_iff in Y as [Y _]; discriminate). }
          apply (fits_iff q m p Pp Z). apply H. exact Hp.
      + intros H p Hp. destruct (I1 p Hp) as [[]|(m & Hm & T & Z & Pp)]. apply (fits_iff q m p Pp Z). apply H. exists l. auto. }
  rewrite PE. unfold targets. split.
  - intros (H1 & H2 & H3 & H4 & H5). exists (ks_name ks), (ks_ns ks), sp. split; auto. split; auto. split; auto. split; auto.
    destruct Sel as [Sel|[Sel _]]; [|congruence]. destruct (ks_selector ks) as [|kv t]; [congruence|]. exists kv, t. auto.
  - intros (n & s & sp' & D' & H1 & H2 & (kv & t & H3 & H4) & H5). destruct (svc_doc_fn _ _ _ _ _ _ _ D D') as (-> & -> & ->).
    destruct Sel as [Sel|[_ Sel]]; [|destruct (Sel kv t H3)]. rewrite H3 in Sel. injection Sel as <-. split; auto. split; auto. split; [discriminate|]. auto.
Qed.
(** The services of a list: the last one of each name and namespace. *)
Definition last_service (l : list k8s_service) (s : k8s_service) : Prop :=
  exists pre post, l = pre ++ s :: post /\ forall s', In s' post -> ~ (ks_name s' = ks_name s /\ ks_ns s' = ks_ns s).
Lemma same_service_eq : forall a b, same_service a b = true <-> sv_name a = sv_name b /\ sv_ns a = sv_ns b.
Proof using. intros a b. unfold same_service. rewrite andb_true_iff, !String.eqb_eq. tauto. Qed.
Definition distinct (l : list service) : Prop := NoDup (map (fun s => (sv_name s, sv_ns s)) l).
Lemma put_service_In : forall s l, distinct l -> distinct (put_service s l) /\
  forall x, In x (put_service s l) <-> x = s \/ In x l /\ ~ (sv_name x = sv_name s /\ sv_ns x = sv_ns s).
Proof using.
  intros s l. induction l as [|x l IH]; intros N.
  - cbn. split; [repeat constructor; intros []|]. intros y. split; [intros [H|[]]; auto|intros [H|[[] _]]; auto].
  - cbn in N. inversion N as [|a b N1 N2]; subst. destruct (IH N2) as [D M]. cbn [put_service]. destruct (same_service s x) eqn:E.
    + apply same_service_eq in E as [E1 E2]. split; [unfold distinct in *; cbn; rewrite E1, E2; constructor; auto|].
      intros y. cbn [In]. split.
      * intros [H|H]; [auto|]. right. split; auto. intros [H1 H2]. apply N1. rewrite <- E1, <- E2, <- H1, <- H2. apply (in_map (fun s => (sv_name s, sv_ns s)) l y H).
      * intros [H|[[H|H] H']]; auto. subst y. destruct H'. auto.
    + assert (E' : ~ (sv_name x = sv_name s /\ sv_ns x = sv_ns s)) by (intros [H1 H2]; assert (same_service s x = true) by (apply same_service_eq; auto); congruence).
      split.
      * unfold distinct in *. cbn [map]. constructor; auto. intros H. apply in_map_iff in H as (y & Ey & Hy). apply M in Hy as [->|[Hy _]]; [apply E'; injection Ey; auto|].
        apply N1. rewrite <- Ey. apply (in_map (fun s => (sv_name s, sv_ns s)) l y Hy).
      * intros y. cbn [In]. rewrite M. split; [intros [<-|[H|H]]; auto; tauto|]. intros [H|[[H|H] H']]; auto.
Qed.
Theorem C57_services : forall l r, set_services cl l = Some r ->
  distinct r /\
  forall x, In x r <-> exists s pods, last_service l s /\ target_pods cl s = Some pods /\ x = Service (ks_name s) (ks_ns s) pods.
Proof using.
  assert (NN : forall l, fold_left (fun acc s => bind acc (fun r => bind (target_pods cl s) (fun t => Some (put_service (Service (ks_name s) (ks_ns s) t) r)))) l None = None) by (induction l; cbn; auto).
  intros l. induction l as [|s l IH] using rev_ind; intros r E; unfold set_services in E.
  - cbn in E. injection E as <-. split; [constructor|]. intros x. split; [intros []|]. intros (s & pods & ([|? ?] & post & Q & _) & _); discriminate.
  - rewrite fold_left_app in E. cbn [fold_left] in E. fold (set_services cl l) in E. destruct (set_services cl l) as [r0|] eqn:E0; [|discriminate]. cbn [bind] in E.
    destruct (target_pods cl s) as [pods|] eqn:Ep; [|discriminate]. cbn [bind] in E. injection E as <-. destruct (IH r0 eq_refl) as [D M].
    destruct (put_service_In (Service (ks_name s) (ks_ns s) pods) r0 D) as [D' M']. split; auto. intros x. rewrite M'. cbn [sv_name sv_ns]. split.
    + intros [->|[H1 H2]].
      * exists s, pods. split; auto. exists l, []. split; auto.
      * apply M in H1 as (s' & pods' & (pre & post & -> & L) & P & ->). exists s', pods'. split; auto. exists pre, (post ++ [s]). split; [rewrite <- app_assoc; reflexivity|].
        intros t Ht. apply in_app_or in Ht as [Ht|[<-|[]]]; auto. cbn in H2. intros [H3 H4]. apply H2. auto.
    + intros (s' & pods' & (pre & post & Q & L) & P & ->). destruct post as [|z post] using rev_ind.
      * apply app_inj_tail in Q as [_ <-]. left. congruence.
      * clear IHpost. rewrite app_comm_cons, app_assoc in Q. apply app_inj_tail in Q as [-> <-]. right. cbn [sv_name sv_ns]. split.
        -- apply M. exists s', pods'. split; auto. exists pre, post. split; auto. intros t Ht. apply L. apply in_or_app. auto.
        -- intros [H1 H2]. apply (L s); auto. apply in_or_app. cbn. auto.
Qed.
End Documents.
Print Assumptions C57_target_pods.
Print Assumptions C57_services.
