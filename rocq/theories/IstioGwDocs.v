(** * What the documents of Istio Gateways and VirtualServices say, and the steps of their parsers: hosts, gateways and their names. *)
From Coq Require Import ZArith List Bool Arith Lia String Ascii.
From Verif Require Import IntervalModel IntervalFacts HyperModel HyperFacts HyperOps HyperDims HyperTop HyperInst PropHyperCube ConnModel ConnFacts TextModel PortProtoModel
                          PeerModel PeerFacts PeerSetFacts PolicyModel PolicyLaws PolicyFacts LayerFacts OrderFacts ConnAlg StdDims PropLayers YamlModel ClusterModel ConnDict
                          SelectorFacts CalicoSelectorSets PropSelectors K8sParserModel K8sParserFacts CalicoSelectorModel CalicoParserModel IstioValueModel PropIstioValues IstioRuleFacts IstioParserModel PropIstioParser
                          ServiceModel PropServices IngressModel IngressWords PropIngressPaths GatewayFacts IngressFacts IngressDocs PropIngress IstioGwModel IstioGwFacts.
Import ListNotations.
Local Open Scope string_scope.
Local Open Scope list_scope.
Local Open Scope nat_scope.
Local Opaque min_pod_index max_pod_index min_ipv6_index max_ipv6_index max_ipv4_index v4max v6min v6max.

(** ** Documents *)
(** The document of a kind with a name, a namespace and a specification. *)
Definition istio_doc (kind : string) (y : yaml) (name ns : string) (sp : dict) : Prop :=
  exists m md v, y = YMap m /\ yget m "kind" = YStr kind /\ yget m "apiVersion" = YStr v /\ In v ["networking.istio.io/v1alpha3"; "networking.istio.io/v1beta1"] /\
    yget m "metadata" = YMap md /\ yget md "name" = YStr name /\ ap_ns md ns /\ yget m "spec" = YMap sp.
Lemma istio_doc_fn : forall k y n s p n' s' p', istio_doc k y n s p -> istio_doc k y n' s' p' -> n' = n /\ s' = s /\ p' = p.
Proof.
  intros k y n s p n' s' p' (m & md & v & -> & _ & _ & _ & E2 & E3 & E4 & E5) (m' & md' & v' & E & _ & _ & _ & F2 & F3 & F4 & F5). injection E as <-.
  rewrite E2 in F2. injection F2 as <-. rewrite E3 in F3. injection F3 as <-. rewrite E5 in F5. injection F5 as <-.
  unfold ap_ns in E4, F4. split; auto. split; [|reflexivity]. destruct E4 as [[A1 A2]|[A1 A2]], F4 as [[B1 B2]|[B1 B2]]; destruct A1 as [A1|A1] || idtac; destruct B1 as [B1|B1] || idtac; congruence.
Qed.
Lemma istio_doc_inv : forall k y o, parse_generic y [k] istio_networking ["istio"] false false true = Some o ->
  match o with
  | None => forall name ns sp, ~ istio_doc k y name ns sp
  | Some (m, name, nsy) => forall t sp, nsy = YStr t -> yget m "spec" = YMap sp -> istio_doc k y name (ns_name t) sp
  end.
Proof.
  intros k y o E. unfold parse_generic in E. destruct y as [| | | | | |m0]; try discriminate.
  destruct (negb (among _ (yget m0 "kind"))) eqn:Ek.
  { injection E as <-. intros name ns sp (m & md & v & E & E1 & _). injection E as <-. rewrite E1 in Ek. cbn [among smem existsb] in Ek. unfold smem in Ek. cbn [existsb] in Ek. rewrite String.eqb_refl in Ek. discriminate. }
  apply negb_false_iff in Ek. destruct (yget m0 "kind") as [| | | |kind| |] eqn:Ekd; try discriminate.
  assert (Hkind : kind = k) by (apply smem_In in Ek; destruct Ek as [<-|[]]; reflexivity). subst kind.
  destruct (yget m0 "apiVersion") as [| | | |v| |] eqn:Ev; try discriminate.
  2:{ destruct (existsb _ _); [discriminate|]. injection E as <-. intros name ns sp (m1 & md & v & E & _ & E1 & _). injection E as <-. rewrite Ev in E1. discriminate. }
  2:{ destruct (existsb _ _); [discriminate|]. injection E as <-. intros name ns sp (m1 & md & v & E & _ & E1 & _). injection E as <-. rewrite Ev in E1. discriminate. }
  match type of E with (if ?b then _ else _) = _ => destruct b eqn:Ew end.
  { injection E as <-. intros name ns sp (m & md & v' & E & _ & E1 & Hv & _). injection E as <-. rewrite Ev in E1. injection E1 as <-. destruct Hv as [<-|[<-|[]]]; discriminate Ew. }
  match type of E with bind ?e _ = _ => destruct e as [mm|] eqn:Ec; [|discriminate] end. cbn [bind] in E.
  apply check_fields_map in Ec as [Em F]. injection Em as <-.
  destruct (check_fields (yget m0 "metadata") metadata_fields) as [md|] eqn:Ed; [|discriminate]. cbn [bind] in E.
  apply check_fields_map in Ed as [Ed Fm]. destruct (yget md "name") as [| | | |nm| |] eqn:Enm; try discriminate. injection E as <-.
  intros t sp En Es. exists m0, md, v. split; [reflexivity|]. split; [exact Ekd|]. split; [exact Ev|]. split.
  { cbn [app forallb] in F. apply andb_true_iff in F as [_ F]. apply andb_true_iff in F as [F _]. unfold field_ok in F. cbn [f_key f_usage f_type] in F. unfold yget in Ev. 
    destruct (assoc_s "apiVersion" m0) as [w|]; [|discriminate]. subst w. apply smem_In. change (smem v istio_networking = true).
    apply andb_true_iff in F as [_ F]. cbn [f_values ytrue among] in F. apply orb_true_iff in F as [F|F]; [|exact F]. destruct v; [discriminate Ew|discriminate F]. }
  split; [exact Ed|]. split; [exact Enm|]. split; [|exact Es].
  unfold ap_ns, yget, ns_name. destruct (assoc_s "namespace" md) as [v0|].
  - subst v0. destruct (String.eqb_spec t "") as [Q|Q]; [subst t; right|left]; auto.
  - injection En as <-. right. auto.
Qed.

(** ** Hosts *)
(** A host with a wildcard stands for the names with something in place of the wildcard. *)
Definition host_matches (s : string) (h : word) : Prop :=
  s = "*" \/ (exists p x, text s = "*"%char :: p /\ h = x ++ p /\ x <> []) \/ ~ In "*"%char (text s) /\ h = text s.
Definition unscoped (s : string) : Prop := ~ In "/"%char (text s).
(** One of the hosts of a list; hosts with a namespace are left out. *)
Definition hosts_say (l : list yaml) (h : word) : Prop := exists s, In (YStr s) l /\ unscoped s /\ host_matches s h.
(** What stands for a wildcard is a text of letters, digits and underscores (so it is not two labels). *)
Definition fair_for (l : list yaml) (h : word) : Prop := over_alphabet h /\
  forall s p x, In (YStr s) l -> unscoped s -> s <> "*" -> text s = "*"%char :: p -> h = x ++ p -> x <> [] /\ Forall (fun c => word_char c = true) x.

(** A dictionary of named things built document by document. *)
Lemma put_named_In : forall {X} (key : X -> string) x l, NoDup (map key l) ->
  NoDup (map key (put_named key x l)) /\ forall z, In z (put_named key x l) <-> z = x \/ In z l /\ key z <> key x.
Proof.
  intros X key x l. induction l as [|y t IH]; intros D; cbn [put_named].
  - split; [repeat constructor; intros []|]. intros z. cbn [In]. split; [intros [<-|[]]; auto|intros [->|[[] _]]; auto].
  - cbn [map] in D. inversion D as [|? ? D1 D2]; subst. destruct (IH D2) as [I1 I2]. destruct (String.eqb_spec (key x) (key y)) as [E|E].
    + split; [cbn [map]; rewrite E; constructor; auto|]. intros z. cbn [In]. split.
      * intros [<-|H]; auto. right. split; auto. intros Q. apply D1. rewrite <- E, <- Q. apply in_map. exact H.
      * intros [->|[[<-|H] N]]; auto. congruence.
    + split.
      * cbn [map]. constructor; auto. intros H. apply in_map_iff in H as (z & Ez & Hz). apply I2 in Hz as [->|[Hz _]]; [congruence|]. apply D1. rewrite <- Ez. apply in_map. exact Hz.
      * intros z. cbn [In]. rewrite I2. split; [intros [<-|[->|[H N]]]; auto|intros [->|[[<-|H] N]]; auto].
Qed.
(** ** Documents read one after the other *)
(** The last document of a name. *)
Definition chosen (D : yaml -> string -> Prop) (docs : list yaml) (y : yaml) (k : string) : Prop := exists a b, docs = a ++ y :: b /\ D y k /\ forall y', In y' b -> ~ D y' k.
Lemma read_named : forall {X} (key : X -> string) (step : list X -> yaml -> option (list X)) (D : yaml -> string -> Prop) (M : yaml -> X -> Prop),
  (forall y x, M y x -> D y (key x)) -> (forall y k k', D y k -> D y k' -> k' = k) ->
  (forall l y l', step l y = Some l' -> (l' = l /\ forall k, ~ D y k) \/ exists x, M y x /\ l' = put_named key x l) ->
  forall docs l, fold_left (fun acc y => bind acc (fun l => step l y)) docs (Some []) = Some l ->
  NoDup (map key l) /\ (forall x, In x l -> exists y, chosen D docs y (key x) /\ M y x) /\ forall y k, chosen D docs y k -> exists x, In x l /\ key x = k /\ M y x.
Proof.
  intros X key step D M MD DF S docs. induction docs as [|y docs IH] using rev_ind; intros l E.
  - cbn [fold_left] in E. injection E as <-. split; [constructor|]. split; [intros x []|]. intros y k (a & b & Q & _). destruct a; discriminate.
  - rewrite fold_left_app in E. cbn [fold_left] in E. destruct (fold_left _ docs (Some [])) as [l0|] eqn:E0; [|discriminate]. cbn [bind] in E. destruct (IH l0 eq_refl) as (I1 & I2 & I3).
    assert (Grow : forall z k, chosen D docs z k -> ~ D y k -> chosen D (docs ++ [y]) z k).
    { intros z k (a & b & -> & Hz & N) Ny. exists a, (b ++ [y]). rewrite <- app_assoc. split; auto. split; auto. intros y' Hy'. apply in_app_or in Hy' as [H|[<-|[]]]; auto. }
    assert (Back : forall z k, chosen D (docs ++ [y]) z k -> z = y /\ D y k \/ chosen D docs z k /\ ~ D y k).
    { intros z k (a & b & Q & Hz & N). destruct b as [|w b] using rev_ind.
      - apply app_inj_tail in Q as [_ <-]. auto.
      - clear IHb. replace (a ++ z :: b ++ [w]) with ((a ++ z :: b) ++ [w]) in Q by (rewrite <- app_assoc; reflexivity). apply app_inj_tail in Q as [-> <-]. right.
        split; [exists a, b; split; auto; split; auto; intros y' Hy'; apply N, in_or_app; auto|apply N, in_or_app; right; left; auto]. }
    destruct (S l0 y l E) as [[-> Ny]|(x & Mx & ->)].
    + split; auto. split.
      * intros x Hx. destruct (I2 x Hx) as (z & Cz & Mz). exists z. split; [apply Grow; auto|auto].
      * intros z k Cz. destruct (Back z k Cz) as [[-> H]|[H _]]; [destruct (Ny k H)|]. exact (I3 z k H).
    + destruct (put_named_In key x l0 I1) as [P1 P2]. split; auto. split.
      * intros z Hz. apply P2 in Hz as [->|[Hz Nz]].
        -- exists y. split; [|auto]. exists docs, []. split; [reflexivity|]. split; [apply MD; auto|intros y' []].
        -- destruct (I2 z Hz) as (w & Cw & Mw). exists w. split; [|auto]. apply Grow; auto. intros H. apply Nz. exact (DF y _ _ (MD y x Mx) H).
      * intros z k Cz. destruct (Back z k Cz) as [[-> H]|[H Nk]].
        -- exists x. split; [apply P2; auto|]. split; auto. exact (DF y _ _ H (MD y x Mx)).
        -- destruct (I3 z k H) as (u & Hu & Ek & Mu). exists u. split; auto. apply P2. right. split; auto. intros Q. apply Nk. rewrite <- Ek, Q. apply MD. exact Mx.
Qed.

Section Hosts.
Context (code : word -> Z) (dfa : list ascii -> val) (CO : code_ok code) (C0 : code [] = 0%Z).
Let O := val_ops std_dom.
(** The hosts of the list are read by automata. *)
Definition hosts_benign (l : list yaml) : Prop := forall s, In (YStr s) l -> unscoped s -> host_benign code dfa (YStr s).
(** A set of hosts (or None: no host) that holds the words of [P] among those of [F]. *)
Definition holds (F : word -> Prop) (o : option val) (P : word -> Prop) : Prop := opt host_set o /\ forall h, F h -> (some_mem (code h) o <-> P h).
Lemma gw_host_spec : forall s o, gw_host std_dom dfa (YStr s) = Some o -> (unscoped s -> host_benign code dfa (YStr s)) ->
  (unscoped s /\ exists v, o = Some v /\ host_set v /\ forall h, fair_for [YStr s] h -> (val_mem (code h) v <-> host_matches s h)) \/ ~ unscoped s /\ o = None.
Proof using CO C0.
  intros s o E B. cbn [gw_host] in E. destruct (existsb (Ascii.eqb "/") (text s)) eqn:Es.
  { right. injection E as <-. split; auto. intros N. apply existsb_exists in Es as (c & Hc & Ec). apply Ascii.eqb_eq in Ec. subst c. exact (N Hc). }
  assert (U : unscoped s). { intros H. assert (existsb (Ascii.eqb "/") (text s) = true) by (apply existsb_exists; exists "/"%char; auto). congruence. }
  left. split; auto. specialize (B U). destruct (host_spec code dfa CO _ _ E B) as (W1 & W2 & _).
  assert (Ev : exists v, o = Some v) by (cbn [parse_host] in E; destruct (String.eqb s "*"); [injection E as <-; eauto|destruct (host_regex s); [injection E as <-; eauto|discriminate]]).
  destruct Ev as [v ->]. exists v. split; auto. cbn [opt] in W1, W2.
  assert (M : forall h, fair_for [YStr s] h -> (val_mem (code h) v <-> host_matches s h)).
  { intros h [Ah Fh]. assert (Fr : fair (YStr s) h) by (intros s' p x Q N Ep Eh; injection Q as <-; right; apply (Fh s p x); auto; left; reflexivity).
    rewrite (W2 h Ah Fr). unfold host_is, host_matches. split.
    - intros [X|[X|[(s' & p & x & X & X1 & X2 & X3 & _)|(s' & X & X1 & X2)]]]; [discriminate|injection X as X; auto|injection X as <-; right; left; exists p, x; auto|injection X as <-; auto].
    - intros [->|[(p & x & X1 & X2 & X3)|[X1 X2]]]; [auto| |right; right; right; exists s; auto].
      destruct (String.string_dec s "*") as [->|Ns]; [auto|]. right. right. left. exists s, p, x. repeat (split; [auto|]).
      destruct (Fh s p x (or_introl eq_refl) U Ns X1 X2) as [_ Hw]. intros H. apply (proj1 (Forall_forall _ _) Hw) in H. discriminate H. }
  split; [|exact M]. destruct W1 as [V (x & Nx & Hx)]. split; [exact V|]. split; [eauto|]. intros Z.
  destruct (String.string_dec s "*") as [->|Ns]; [injection E as <-; intros z H; exact (proj1 (mem_nil z) H)|]. exfalso.
  destruct B as [B|(s' & B & Bs)]; [discriminate|]. injection B as <-. destruct Bs as [Bs|(Ne & _ & _)]; [congruence|].
  rewrite <- C0 in Z. apply M in Z.
  - destruct Z as [Z|[(p & y & _ & Z & Ny)|[_ Z]]]; [congruence|destruct y; [congruence|discriminate]|]. apply Ne. destruct s; [reflexivity|discriminate].
  - split; [constructor|]. intros s' p y [Q|[]] _ N Ep Eh. injection Q as <-. exfalso. destruct y; [|discriminate]. cbn [app] in Eh. subst p. apply Ns. destruct s as [|c s]; [discriminate|]. injection Ep as -> Ep. destruct s; [reflexivity|discriminate].
Qed.
Lemma or_word_spec : forall F a v P Q, holds F a P -> host_set v -> (forall h, F h -> (val_mem (code h) v <-> Q h)) -> holds F (Some (or_word std_dom a v)) (fun h => P h \/ Q h).
Proof using.
  intros F a v P Q [H1 H2] Hv Mv. destruct a as [u|]; cbn [or_word opt] in *.
  - rewrite (hset_bool u H1). destruct (hset_or u v H1 Hv) as [X1 X2]. split; [exact X1|]. intros h Fh. rewrite <- (H2 h Fh), <- (Mv h Fh). unfold some_mem. split.
    + intros (w & Ew & Hw). injection Ew as <-. apply X2 in Hw as [Hw|Hw]; [left; eauto|auto].
    + intros [(w & Ew & Hw)|Hw]; eexists; (split; [reflexivity|]); apply X2; [left; injection Ew as <-; auto|auto].
  - split; [exact Hv|]. intros h Fh. rewrite <- (H2 h Fh), <- (Mv h Fh). unfold some_mem. split.
    + intros (w & Ew & Hw). injection Ew as <-. auto.
    + intros [(w & Ew & _)|Hw]; [discriminate|eauto].
Qed.
Lemma fair_one : forall l s h, fair_for l h -> In (YStr s) l -> fair_for [YStr s] h.
Proof using. intros l s h [F1 F2] Hs. split; auto. intros s' p x [Q|[]]. injection Q as <-. apply F2. exact Hs. Qed.
Lemma holds_ext : forall (F : word -> Prop) o (P Q : word -> Prop), (forall h, F h -> (P h <-> Q h)) -> holds F o P -> holds F o Q.
Proof using. intros F o P Q H [H1 H2]. split; auto. intros h Fh. rewrite (H2 h Fh). apply H. exact Fh. Qed.
Lemma gw_host_str : forall y o, gw_host std_dom dfa y = Some o -> exists s, y = YStr s.
Proof using. intros [| | | |s| |] o E; try discriminate. eauto. Qed.
Lemma server_hosts_spec : forall l o, server_hosts std_dom dfa l = Some o -> hosts_benign l -> holds (fair_for l) o (hosts_say l).
Proof using CO C0.
  intros l o E B. unfold server_hosts in E.
  assert (G : forall t a P, (forall y, In y t -> In y l) -> holds (fair_for l) a P ->
    fold_left (fun acc y => bind acc (fun a => bind (gw_host std_dom dfa y) (fun o =>
      Some (match o with Some v => if vbool O v then Some (or_word std_dom a v) else a | None => a end)))) t (Some a) = Some o ->
    holds (fair_for l) o (fun h => P h \/ hosts_say t h)).
  { induction t as [|y t IH]; intros a P It Ha Ef.
    - cbn [fold_left] in Ef. injection Ef as <-. refine (holds_ext _ _ _ _ _ Ha). intros h _. split; auto. intros [H|(s & [] & _)]; auto.
    - cbn [fold_left bind] in Ef. destruct (gw_host std_dom dfa y) as [oy|] eqn:Ey.
      2:{ exfalso. clear - Ef. cbn [bind] in Ef. induction t as [|z t IH]; [discriminate|]. cbn [fold_left bind] in Ef. auto. }
      cbn [bind] in Ef. destruct (gw_host_str y oy Ey) as [s ->]. assert (Is : In (YStr s) l) by (apply It; left; auto).
      destruct (gw_host_spec s oy Ey (B s Is)) as [(U & v & -> & Hv & Mv)|(NU & ->)].
      + unfold O in Ef. rewrite (hset_bool v Hv) in Ef.
        pose proof (or_word_spec (fair_for l) a v P (host_matches s) Ha Hv (fun h Fh => Mv h (fair_one l s h Fh Is))) as Hn.
        refine (holds_ext _ _ _ _ _ (IH _ _ (fun z Hz => It z (or_intror Hz)) Hn Ef)). intros h _. unfold hosts_say. cbn [In]. split.
        * intros [[H|H]|(s' & H1 & H2)]; [auto|right; exists s; auto|right; exists s'; auto].
        * intros [H|(s' & [Q|H1] & H2)]; [auto|injection Q as <-; left; right; apply H2|right; exists s'; auto].
      + refine (holds_ext _ _ _ _ _ (IH _ _ (fun z Hz => It z (or_intror Hz)) Ha Ef)). intros h _. unfold hosts_say. cbn [In]. split.
        * intros [H|(s' & H1 & H2)]; [auto|right; exists s'; auto].
        * intros [H|(s' & [Q|H1] & H2 & H3)]; [auto|injection Q as <-; destruct (NU H2)|right; exists s'; auto]. }
  refine (holds_ext _ _ _ _ _ (G l None (fun _ => False) (fun y H => H) _ E)).
  - intros h _. tauto.
  - split; [exact I|]. intros h _. split; [intros (v & X & _); discriminate|tauto].
Qed.
Definition server_hosts_of (y : yaml) : list yaml := match y with YMap m => ylist (yget m "hosts") | _ => [] end.
(** The hosts of all servers of a gateway. *)
Definition all_server_hosts (servers : list yaml) : list yaml := flat_map server_hosts_of servers.
Lemma hosts_say_in : forall l l' h, hosts_say l h -> (forall y, In y l -> In y l') -> hosts_say l' h.
Proof using. intros l l' h (s & H & H') I. exists s. auto. Qed.
Lemma fair_sub : forall l l' h, fair_for l h -> (forall y, In y l' -> In y l) -> fair_for l' h.
Proof using. intros l l' h [F1 F2] I. split; auto. intros s p x H. apply F2. auto. Qed.
Lemma parse_server_spec : forall y v, parse_server std_dom dfa y = Some v -> hosts_benign (server_hosts_of y) ->
  host_set v /\ forall h, fair_for (server_hosts_of y) h -> (val_mem (code h) v <-> hosts_say (server_hosts_of y) h).
Proof using CO C0.
  intros y v E B. unfold parse_server in E. match type of E with bind ?e _ = _ => destruct e as [m|] eqn:Em; [|discriminate] end. cbn [bind] in E. apply check_fields_map in Em as [-> _].
  match type of E with bind ?e _ = _ => destruct e as [pm|]; [|discriminate] end. cbn [bind] in E. cbn [server_hosts_of] in *.
  match type of E with bind ?e _ = _ => destruct e as [o|] eqn:Eo; [|discriminate] end. cbn [bind] in E.
  destruct o as [u|]; [|discriminate]. destruct (vbool _ u); [|discriminate]. injection E as ->.
  destruct (server_hosts_spec _ _ Eo B) as [H1 H2]. split; [exact H1|]. intros h Fh. rewrite <- (H2 h Fh). unfold some_mem. split; [eauto|intros (w & Q & Hw); injection Q as <-; exact Hw].
Qed.
Lemma parse_servers_spec : forall l o, parse_servers std_dom dfa l = Some o -> hosts_benign (all_server_hosts l) -> holds (fair_for (all_server_hosts l)) o (hosts_say (all_server_hosts l)).
Proof using CO C0.
  intros l o E B. unfold parse_servers in E.
  assert (G : forall t a P, (forall y, In y t -> In y l) -> holds (fair_for (all_server_hosts l)) a P ->
    fold_left (fun acc y => bind acc (fun a => bind (parse_server std_dom dfa y) (fun v => Some (Some (or_word std_dom a v))))) t (Some a) = Some o ->
    holds (fair_for (all_server_hosts l)) o (fun h => P h \/ hosts_say (all_server_hosts t) h)).
  { induction t as [|y t IH]; intros a P It Ha Ef.
    - cbn [fold_left] in Ef. injection Ef as <-. refine (holds_ext _ _ _ _ _ Ha). intros h _. split; auto. intros [H|(s & [] & _)]; auto.
    - cbn [fold_left bind] in Ef. destruct (parse_server std_dom dfa y) as [v|] eqn:Ey.
      2:{ exfalso. clear - Ef. cbn [bind] in Ef. induction t as [|z t IH]; [discriminate|]. cbn [fold_left bind] in Ef. auto. }
      cbn [bind] in Ef. assert (Iy : forall z, In z (server_hosts_of y) -> In z (all_server_hosts l)) by (intros z Hz; apply in_flat_map; exists y; split; [apply It; left; auto|auto]).
      destruct (parse_server_spec y v Ey) as [Hv Mv]; [intros s Hs; apply B; auto|].
      pose proof (or_word_spec _ a v P _ Ha Hv (fun h Fh => Mv h (fair_sub _ _ h Fh Iy))) as Hn.
      refine (holds_ext _ _ _ _ _ (IH _ _ (fun z Hz => It z (or_intror Hz)) Hn Ef)). intros h _. unfold hosts_say, all_server_hosts. cbn [flat_map]. split.
      + intros [[H|(s & H1 & H2)]|(s & H1 & H2)]; [auto|right; exists s; split; [apply in_or_app; auto|auto]|right; exists s; split; [apply in_or_app; auto|auto]].
      + intros [H|(s & H1 & H2)]; [auto|]. apply in_app_or in H1 as [H1|H1]; [left; right; eauto|right; eauto]. }
  refine (holds_ext _ _ _ _ _ (G l None (fun _ => False) (fun y H => H) _ E)).
  - intros h _. tauto.
  - split; [exact I|]. intros h _. split; [intros (v & X & _); discriminate|tauto].
Qed.

(** ** Gateways *)
Section Gateways.
Context (cl : cluster) (Hc : cluster_ok cl).
(** The workloads with the labels of the selector, in all namespaces. *)
Definition has_labels (sel : dict) (q : peer) : Prop :=
  In q (cl_peers cl) /\ is_dns q = false /\ forall k v, In (k, v) sel -> exists w, v = YStr w /\ pod_has cl q k w.
Definition of_type (sel : dict) (eg : bool) : Prop := yget sel "istio" = YStr (if eg then "egressgateway" else "ingressgateway").
(** A Gateway document of a type and with workloads. *)
Definition gateway_doc (y : yaml) (name ns : string) (sel : dict) (servers : list yaml) (eg : bool) : Prop :=
  exists sp, istio_doc "Gateway" y name ns sp /\ yget sp "selector" = YMap sel /\ ylist (yget sp "servers") = servers /\ of_type sel eg /\ exists q, has_labels sel q.
Lemma gateway_doc_fn : forall y n s sel sv eg n' s' sel' sv' eg', gateway_doc y n s sel sv eg -> gateway_doc y n' s' sel' sv' eg' -> n' = n /\ s' = s /\ sel' = sel /\ sv' = sv /\ eg' = eg.
Proof using.
  intros y n s sel sv eg n' s' sel' sv' eg' (sp & D & E1 & E2 & E3 & _) (sp' & D' & E1' & E2' & E3' & _). destruct (istio_doc_fn _ _ _ _ _ _ _ _ D D') as (-> & -> & ->).
  rewrite E1 in E1'. injection E1' as <-. rewrite E2 in E2'. repeat (split; [auto|]). unfold of_type in *. destruct eg, eg'; congruence.
Qed.
Lemma gateway_type_spec : forall sel eg, gateway_type sel = Some eg <-> of_type sel eg.
Proof using.
  intros sel eg. unfold gateway_type, of_type, yget. destruct (assoc_s "istio" sel) as [[| | | |v| |]|]; try (split; discriminate).
  destruct (String.eqb_spec v "ingressgateway") as [->|N1]; [destruct eg; split; try discriminate; reflexivity|].
  destruct (String.eqb_spec v "egressgateway") as [->|N2]; [destruct eg; split; try discriminate; reflexivity|].
  split; [discriminate|]. destruct eg; congruence.
Qed.
Lemma gateway_peers_spec : forall sel s, gateway_peers cl sel = Some s -> of_cluster cl s /\ forall q, In q s <-> has_labels sel q.
Proof using Hc.
  intros sel s E. pose proof (cluster_plain cl Hc) as Pc. unfold gateway_peers in E.
  assert (L : forall q k w, In q (cl_peers cl) -> (In q (peers_with_label cl k [w] FIn None) <-> pod_has cl q k w)).
  { intros q k w Hq. unfold peers_with_label. rewrite select_In. cbn [ns_is andb]. rewrite orb_true_iff, !get_in_spec. unfold pod_has. split.
    - intros [_ [(u & E1 & [->|[]])|(u & E1 & [->|[]])]]; auto.
    - intros [H|H]; (split; [auto|]); [left|right]; exists w; split; auto; left; auto. }
  assert (G : forall t r, of_cluster cl r -> (forall q, In q r -> is_dns q = false) ->
    fold_left (fun acc kv => bind acc (fun r => match (match snd kv with YStr v => peers_with_label cl (fst kv) [v] FIn None | _ => [] end) with [] => Some [] | s => ps_inter r s end)) t (Some r) = Some s ->
    of_cluster cl s /\ forall q, In q s <-> In q r /\ forall k v, In (k, v) t -> exists w, v = YStr w /\ pod_has cl q k w).
  { induction t as [|[k v] t IH]; intros r Pr Dr Ef.
    - cbn [fold_left] in Ef. injection Ef as <-. split; auto. intros q. split; [intros H; split; auto; intros k v []|tauto].
    - cbn [fold_left bind fst snd] in Ef. set (s1 := match v with YStr v0 => peers_with_label cl k [v0] FIn None | _ => [] end) in *.
      assert (P1 : plain s1) by (unfold s1; destruct v; try (intros q []); apply select_plain; auto).
      assert (M1 : forall q, In q (cl_peers cl) -> (In q s1 <-> exists w, v = YStr w /\ pod_has cl q k w)).
      { intros q Hq. unfold s1. destruct v; try (split; [intros []|intros (w & Q & _); discriminate]). rewrite (L q k s0 Hq). split; [eauto|intros (w & Q & H); injection Q as <-; exact H]. }
      assert (X : exists r1, match s1 with [] => Some [] | _ => ps_inter r s1 end = Some r1 /\ plain r1 /\ forall q, In q r1 <-> In q r /\ In q s1).
      { destruct (plain_inter r s1 (proj1 Pr) P1) as (r1 & E1 & Pr1 & I1). destruct s1 as [|x s1]; [|exists r1; auto]. exists []. split; auto. split; [intros q []|]. intros q. cbn [In]. tauto. }
      destruct X as (r1 & Er1 & Pr1 & I1).
      match type of Ef with fold_left _ _ ?e = _ => assert (Qe : e = Some r1) by (etransitivity; [|exact Er1]; unfold s1; destruct v; try reflexivity; destruct (peers_with_label cl k [s0] FIn None); reflexivity); rewrite Qe in Ef; clear Qe end.
      destruct (IH r1) as [A1 A2]; auto.
      { split; auto. intros q Hq. apply I1 in Hq as [Hq _]. apply Pr. exact Hq. }
      { intros q Hq. apply I1 in Hq as [Hq _]. auto. }
      split; auto. intros q. rewrite A2, I1. split.
      + intros [[H1 H2] H3]. split; auto. intros k' v' [Q|H]; auto. injection Q as <- <-. apply M1; auto. apply Pr. exact H1.
      + intros [H1 H2]. split; [split; auto; apply M1; [apply Pr; exact H1|apply H2; left; auto]|]. intros k' v' H. apply H2. right. exact H. }
  destruct (G sel (all_group cl)) as [A1 A2]; auto.
  - apply group_cluster. exact Hc.
  - intros q Hq. apply all_group_In in Hq as [_ Hq]; auto.
  - split; auto. intros q. rewrite A2, all_group_In by auto. unfold has_labels. tauto.
Qed.
(** The gateway that a document stands for. *)
Definition gateway_of (y : yaml) (g : gateway) : Prop :=
  exists name ns sel servers eg, gateway_doc y name ns sel servers eg /\ gw_name g = slash_name ns name /\ gw_egress g = eg /\ of_cluster cl (gw_peers g) /\
    (forall q, In q (gw_peers g) <-> has_labels sel q) /\
    (hosts_benign (all_server_hosts servers) -> holds (fair_for (all_server_hosts servers)) (gw_hosts g) (hosts_say (all_server_hosts servers))).
Lemma parse_gateway_spec : forall gs y gs', parse_gateway std_dom cl dfa gs y = Some gs' ->
  (gs' = gs /\ forall name ns sel servers eg, ~ gateway_doc y name ns sel servers eg) \/ exists g, gateway_of y g /\ gs' = put_named gw_name g gs.
Proof using CO C0 Hc.
  intros gs y gs' E. unfold parse_gateway in E. match type of E with bind ?e _ = _ => destruct e as [o|] eqn:Eg; [|discriminate] end. cbn [bind] in E.
  pose proof (istio_doc_inv _ _ _ Eg) as D. destruct o as [[[m name] nsy]|].
  2:{ left. injection E as <-. split; auto. intros n s sel sv eg (sp & X & _). exact (D _ _ _ X). }
  destruct nsy as [| | | |t| |]; try discriminate. match type of E with bind ?e _ = _ => destruct e as [sp|] eqn:Es; [|discriminate] end. cbn [bind] in E. apply check_fields_map in Es as [Es _].
  specialize (D t sp eq_refl Es). destruct (yget sp "selector") as [| | | | | |sel] eqn:El; try discriminate.
  destruct (gateway_peers cl sel) as [peers|] eqn:Ep; [|discriminate]. cbn [bind] in E. destruct (gateway_peers_spec sel peers Ep) as [Cp Mp].
  assert (Skip : (gateway_type sel = None \/ peers = []) -> forall n s sel' sv eg, ~ gateway_doc y n s sel' sv eg).
  { intros H n s sel' sv eg (sp' & D' & E1 & _ & E3 & q & E4). destruct (istio_doc_fn _ _ _ _ _ _ _ _ D D') as (-> & -> & ->). rewrite El in E1. injection E1 as <-.
    destruct H as [H|H]; [apply gateway_type_spec in E3; congruence|]. apply Mp in E4. rewrite H in E4. exact E4. }
  destruct (gateway_type sel) as [eg|] eqn:Et.
  2:{ injection E as <-. left. split; auto. }
  destruct peers as [|p0 pt]; [injection E as <-; left; split; auto|]. set (peers := p0 :: pt) in *.
  match type of E with bind ?e _ = _ => destruct e as [hosts|] eqn:Eh; [|discriminate] end. cbn [bind] in E. injection E as <-. right.
  eexists. split; [|reflexivity]. exists name, (ns_name t), sel, (ylist (yget sp "servers")), eg. cbn [gw_name gw_egress gw_peers gw_hosts]. split.
  { exists sp. split; auto. split; auto. split; auto. split; [apply gateway_type_spec; auto|]. exists p0. apply Mp. left. auto. }
  split; auto. split; auto. split; auto. split; auto. intros B. exact (parse_servers_spec _ _ Eh B).
Qed.
(** The documents of Gateways, one after the other. *)
Definition gateway_key (y : yaml) (k : string) : Prop := exists name ns sel servers eg, gateway_doc y name ns sel servers eg /\ k = slash_name ns name.
Lemma gateways_read : forall docs gs, fold_left (fun acc y => bind acc (fun gs => parse_gateway std_dom cl dfa gs y)) docs (Some []) = Some gs ->
  NoDup (map gw_name gs) /\ (forall g, In g gs -> exists y, chosen gateway_key docs y (gw_name g) /\ gateway_of y g) /\
  forall y k, chosen gateway_key docs y k -> exists g, In g gs /\ gw_name g = k /\ gateway_of y g.
Proof using CO C0 Hc.
  intros docs gs E. refine (read_named gw_name (parse_gateway std_dom cl dfa) gateway_key gateway_of _ _ _ docs gs E).
  - intros y g (name & ns & sel & sv & eg & D & En & _). exists name, ns, sel, sv, eg. auto.
  - intros y k k' (n1 & s1 & l1 & v1 & e1 & D1 & ->) (n2 & s2 & l2 & v2 & e2 & D2 & ->). destruct (gateway_doc_fn _ _ _ _ _ _ _ _ _ _ _ D1 D2) as (-> & -> & _). reflexivity.
  - intros l y l' Es. destruct (parse_gateway_spec l y l' Es) as [[-> N]|H]; [left|right; exact H]. split; auto. intros k (n1 & s1 & l1 & v1 & e1 & D1 & _). exact (N _ _ _ _ _ D1).
Qed.
End Gateways.
End Hosts.
