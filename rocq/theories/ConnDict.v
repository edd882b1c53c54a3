(** * make_conn_props_from_dict in general: connections from a dictionary of dimension values. *)
From Coq Require Import ZArith List Bool Arith Lia String.
From Verif Require Import IntervalModel IntervalFacts HyperModel HyperFacts HyperOps HyperDims HyperTop HyperInst
                          PropHyperCube ConnModel ConnFacts PortProtoModel PeerModel PeerFacts PeerSetFacts
                          PolicyModel PolicyLaws ConnAlg StdDims.
Import ListNotations.
Local Open Scope nat_scope.

(** The dictionary: [None] for a key that is not given. *)
Record cdict := CDict {
  k_src : option peerset;
  k_dst : option peerset;
  k_proto : option iset;
  k_sports : option iset;        (* src_ports: __setitem__ keeps the numbers only, ConnectivityCube.py:93-98 *)
  k_dports : option portset;
  k_methods : option iset;
  k_hosts : option val;
  k_paths : option val;
  k_type : option Z;
  k_code : option Z
}.
Definition no_dict : cdict := CDict None None None None None None None None None None.

Section Dict.
Context (dom : dim -> val) (reg : list peer).
Definition or_dom {X} (d : dim) (f : X -> val) (o : option X) : val := match o with Some x => f x | None => dom d end.
(** ConnectivityCube.make_from_dict, update and __setitem__, ConnectivityCube.py:82-104, 201-205: translation of the
    values to the internal format. *)
Definition dict_cube (k : cdict) (d : dim) : val :=
  match d with
  | 0 => or_dom 0 (peers_val reg) (k_src k)
  | 1 => or_dom 1 (peers_val reg) (k_dst k)
  | 2 => or_dom 2 VI (k_proto k)
  | 3 => or_dom 3 VI (k_sports k)
  | 4 => or_dom 4 (fun p => VI (port_set p)) (k_dports k)
  | 5 => or_dom 5 VI (k_methods k)
  | 6 => or_dom 6 id (k_hosts k)
  | 7 => or_dom 7 id (k_paths k)
  | 8 => or_dom 8 (fun z => VI [Ivl z z]) (k_type k)
  | 9 => or_dom 9 (fun z => VI [Ivl z z]) (k_code k)
  | _ => dom d
  end.
(** The PortSet {n1, ..., nk} of _resolve_named_ports, ConnectivityProperties.py:256-271. *)
Definition ports_val (l : list Z) : val :=
  VI (fold_left (fun s n => match add_interval s (Ivl n n) with Some s' => s' | None => s end) l []).
(** The peers of a dst_peers value with their named ports: ConnectivityCube.__getitem__ (ConnectivityCube.py:106-118)
    and Peer.get_named_ports (Peer.py:94-99; an IpBlock has none). *)
Definition port_peers (named : peer -> list (string * (Z * Z))) (v : val) : list (peerinfo (V:=val) (P:=Z)) :=
  match v with
  | VI l => match peer_set_by_indices reg l with
            | Some s => map (fun p => PeerInfo (peers_val reg [p]) (if is_block p then [] else named p)) s
            | None => []
            end
  | VN _ _ => []
  end.
Definition names_of (k : cdict) : list string := match k_dports k with Some p => named_ports p | None => [] end.
Definition excl_of (k : cdict) : list string := match k_dports k with Some p => excluded_named_ports p | None => [] end.
(** make_conn_props_from_dict, ConnectivityProperties.py:326-329. *)
Definition conns_of (named : peer -> list (string * (Z * Z))) (k : cdict) : hc val :=
  make_conn_props (val_ops dom) (dim_empty dom) ports_val (port_peers named) 4 1 2 std_all (dict_cube k) (names_of k) (excl_of k).
End Dict.

(** ** What the connections are *)
(** The port numbers that a named port denotes at the destination. *)
Definition named_at (named : peer -> list (string * (Z * Z))) (x : point) (name : string) (n proto : Z) : Prop :=
  exists k s, x = PN k s /\ assoc_s name (named (Named k s)) = Some (n, proto).
Definition dport_in (named : peer -> list (string * (Z * Z))) (protos : Z -> Prop) (x : point) (p : portset) (n : Z) : Prop :=
  mem n (port_set p) \/ exists name pr, In name (named_ports p) /\ protos pr /\ named_at named x name n pr.

Section Facts.
Context (dom : dim -> val) (reg vis : list peer) (D : iset).
Context (K : alg_ok dom std_rest reg vis D [Ivl 0 255]).
Context (E3 : dom 3 = VI [Ivl 1 65535]%Z) (E4 : dom 4 = VI [Ivl 1 65535]%Z) (E5 : dom 5 = VI [Ivl 0 8]%Z) (E8 : dom 8 = VI [Ivl 0 254]%Z)
        (E9 : dom 9 = VI [Ivl 0 255]%Z).
Context (named : peer -> list (string * (Z * Z))).
Context (Hn : forall p nm n pr, assoc_s nm (named p) = Some (n, pr) -> (1 <= n <= 65535)%Z).
Let O := val_ops dom.
Let L := val_laws dom (ok_doms _ _ _ _ _ _ K).
Let tempty : dim -> val := fun e => match dom e with VI _ => VI [] | VN _ _ => VN false [] end.

Lemma tempty_ok : forall e, val_valid dom e (tempty e) /\ forall x, ~ val_mem x (tempty e).
Proof.
  intros e. unfold tempty. split.
  - unfold val_valid. destruct (dom e) eqn:Ee; cbn; (split; [exact I|]); (split; [exact I|]); intros x Hx; apply mem_nil in Hx; tauto.
  - intros x. destruct (dom e); cbn [val_mem]; rewrite mem_nil; tauto.
Qed.

(** A set of words that holds a non-empty word. *)
Definition words_ok (c : dim -> val) : Prop := forall e u m, dom e = VN u m -> val_valid dom e (c e) /\ exists x, x <> 0%Z /\ val_mem x (c e).
Lemma words_empty : forall c, words_ok c -> make_props O (dim_empty dom) std_all c = make_props O tempty std_all c.
Proof.
  intros c W. unfold make_props. replace (ccube_is_empty O (dim_empty dom) std_all c) with (ccube_is_empty O tempty std_all c); auto.
  unfold ccube_is_empty. induction std_all as [|e l IH]; auto. cbn [existsb]. rewrite IH. f_equal. unfold tempty, dim_empty.
  destruct (dom e) as [m|u m] eqn:Ee; auto. destruct (W e u m Ee) as (V & x & Hx & M).
  assert (V0 : val_valid dom e (VN false [Ivl 0 0])).
  { unfold val_valid. rewrite Ee. cbn. split; [lia|]. split; [exact I|]. intros z _.
    pose proof (ok_doms _ _ _ _ _ _ K e) as De. rewrite Ee in De. destruct De as [-> ->]. cbn. rewrite mem_nil. tauto. }
  assert (V1 : val_valid dom e (VN false [])).
  { unfold val_valid. rewrite Ee. cbn. split; [exact I|]. split; [exact I|]. intros z Hz. apply mem_nil in Hz. tauto. }
  transitivity false; [|symmetry]; apply not_true_is_false; intros T.
  - pose proof (proj1 (proj1 (L_eqb _ _ _ L e _ _ V V1) T x) M) as M'. clear M; rename M' into M. cbn in M. apply mem_nil in M. auto.
  - pose proof (proj1 (proj1 (L_eqb _ _ _ L e _ _ V V0) T x) M) as M'. clear M; rename M' into M. cbn in M. rewrite mem_cons, mem_nil in M. cbn in M. lia.
Qed.
Lemma words_set : forall c d v, words_ok c -> (forall u m, dom d <> VN u m) -> words_ok (ccube_set c d v).
Proof. intros c d v W H e u m Ee. unfold ccube_set. destruct (Nat.eqb_spec e d) as [->|]; [destruct (H _ _ Ee)|eauto]. Qed.
Lemma named_words : forall c names excl, words_ok c ->
  make_conn_props O (dim_empty dom) ports_val (port_peers reg named) 4 1 2 std_all c names excl =
  make_conn_props O tempty ports_val (port_peers reg named) 4 1 2 std_all c names excl.
Proof.
  intros c names excl W. unfold make_conn_props. rewrite (words_empty c W).
  assert (S : forall peers h, fold_left (named_step O (dim_empty dom) ports_val 4 1 std_all c names excl (c 2)) peers h =
                              fold_left (named_step O tempty ports_val 4 1 std_all c names excl (c 2)) peers h).
  { induction peers as [|q peers IH]; intros h; auto. cbn [fold_left]. rewrite IH. f_equal. unfold named_step.
    assert (X : forall v w, make_props O (dim_empty dom) std_all (ccube_set (ccube_set c 4 v) 1 w) =
                            make_props O tempty std_all (ccube_set (ccube_set c 4 v) 1 w)).
    { intros v w. apply words_empty. apply words_set; [apply words_set; auto|].
      - rewrite E4. discriminate.
      - intros u m. pose proof (ok_dst _ _ _ _ _ _ K) as Ed. unfold d_dst in Ed. rewrite Ed. discriminate. }
    cbv zeta. destruct (resolve_named O names q (c 2)), (resolve_named O excl q (c 2)); rewrite ?X; reflexivity. }
  destruct names, excl; auto.
Qed.

Lemma ports_val_ok : forall l, (forall x, In x l -> (1 <= x <= 65535)%Z) ->
  val_valid dom 4 (ports_val l) /\ forall x, val_mem x (ports_val l) <-> In x l.
Proof.
  intros l H.
  assert (G : forall l m, canonical m ->
        let r := fold_left (fun s n => match add_interval s (Ivl n n) with Some s' => s' | None => s end) l m in
        canonical r /\ forall x, mem x r <-> mem x m \/ In x l).
  { clear l H. induction l as [|n l IH]; intros m Cm; cbn [fold_left].
    - split; auto. intro x. simpl. tauto.
    - destruct (add_interval_ok m (Ivl n n)) as (s & E & C1 & M1 & _); auto; [simpl; lia|]. rewrite E.
      destruct (IH s C1) as [A B]. split; auto. intro x. rewrite B, M1. cbn [lo hi In]. intuition (try lia). }
  destruct (G l [] I) as [A B]. unfold ports_val.
  set (r := fold_left (fun s n => match add_interval s (Ivl n n) with Some s' => s' | None => s end) l []) in *.
  assert (M : forall x, mem x r <-> In x l) by (intros x; rewrite B, mem_nil; tauto).
  split; [|exact M]. split; [exact A|]. rewrite E4. split; [exact I|]. cbn. intros x Hx. apply M, H in Hx.
  exists (Ivl 1 65535). split; [left; auto|cbn; lia].
Qed.

Local Opaque min_pod_index max_pod_index min_ipv6_index max_ipv6_index max_ipv4_index v4max v6min v6max.
(** Translating a peer set to indices and back. *)
Lemma back_and_forth : forall s, pok vis s -> exists l s', peer_interval_of reg s = Some l /\ peer_set_by_indices reg l = Some s' /\
  pok vis s' /\ forall z, mem z D -> (pt_in (point_of_index reg z) s' <-> pt_in (point_of_index reg z) s).
Proof.
  intros s P. pose proof (ok_reg _ _ _ _ _ _ K) as R.
  pose proof icons as (K1 & K2 & K3 & K4 & K5). pose proof consts as (Q1 & Q2 & Q3).
  destruct P as [P1 P2].
  assert (P3 : forall k n, In (Named k n) s -> In (Named k n) reg) by (intros k n H; apply (ok_vis _ _ _ _ _ _ K); auto).
  destruct (peer_interval_ok reg s R P1 P3) as (l & El & C & M).
  assert (PB : forall j p, peer_index reg p = Some j -> (0 <= j < Z.of_nat (List.length reg))%Z).
  { intros j p Ej. apply peer_index_spec in Ej as [J1 J2]; [|apply R]. assert (Hx : nth_error reg (Z.to_nat j) <> None) by congruence.
    apply nth_error_Some in Hx. lia. }
  assert (Zs : forall z, mem z l -> zone_ok reg (Ivl z z)).
  { intros z Hz. apply M in Hz as (x & Hx & Ex). unfold zone_ok. cbn [lo hi]. destruct R as (_ & _ & R3). unfold max_num_of_pods in R3.
    destruct x as [k n|y]; cbn [point_index] in Ex.
    - destruct (peer_index reg (Named k n)) as [j|] eqn:Ej; [|discriminate]. cbn in Ex. injection Ex as <-. apply PB in Ej. lia.
    - destruct Hx as (m & Hm & Hy). apply (P1 m Hm) in Hy. injection Ex as <-. unfold addr_index, vpos in *. destruct (Z.leb_spec y v4max); lia. }
  assert (ZZ : forall i, In i l -> zone_ok reg i).
  { intros i Hi. pose proof (canonical_in _ _ C Hi) as Li.
    assert (X : zone_ok reg (Ivl (lo i) (lo i))) by (apply Zs; exists i; split; [auto|lia]).
    assert (Y : zone_ok reg (Ivl (hi i) (hi i))) by (apply Zs; exists i; split; [auto|lia]).
    assert (M4 : ~ (lo i <= max_ipv4_index + 1 <= hi i)%Z).
    { intros Hm. assert (Zm : zone_ok reg (Ivl (max_ipv4_index + 1) (max_ipv4_index + 1))) by (apply Zs; exists i; auto). unfold zone_ok in Zm. cbn [lo hi] in Zm. lia. }
    assert (M6 : ~ (lo i <= max_ipv6_index + 1 <= hi i)%Z).
    { intros Hm. assert (Zm : zone_ok reg (Ivl (max_ipv6_index + 1) (max_ipv6_index + 1))) by (apply Zs; exists i; auto). unfold zone_ok in Zm. cbn [lo hi] in Zm. lia. }
    unfold zone_ok in *. cbn [lo hi] in *. lia. }
  destruct (by_indices_ok reg l R C ZZ) as (s' & Es & Ps & _ & H). exists l, s'. split; auto. split; auto.
  assert (Pk : pok vis s').
  { split; auto. intros k n Hs. apply (H (PN k n) I) in Hs as (z & Hz & Ez). apply M in Hz as (x & Hx & Ex).
    cbn [point_index] in Ez. destruct (peer_index reg (Named k n)) as [j|] eqn:Ej; [|discriminate]. cbn in Ez. injection Ez as Ez.
    pose proof (PB _ _ Ej) as J. destruct x as [k' n'|y]; cbn [point_index] in Ex.
    - destruct (peer_index reg (Named k' n')) as [j'|] eqn:Ej'; [|discriminate]. cbn in Ex. injection Ex as Ex.
      replace j' with j in Ej' by lia. apply peer_index_spec in Ej as [_ J1]; [|apply R]. apply peer_index_spec in Ej' as [_ J2]; [|apply R].
      rewrite J1 in J2. injection J2 as -> ->. apply P2. exact Hx.
    - destruct Hx as (m & Hm & Hy). apply (P1 m Hm) in Hy. injection Ex as Ex. unfold addr_index, vpos in *. destruct (Z.leb_spec y v4max); lia. }
  split; auto. intros z Hz. rewrite (point_index_of _ _ _ _ _ _ K s' z Pk Hz), (point_index_of _ _ _ _ _ _ K s z (conj P1 P2) Hz).
  assert (V : forall t, ps_ok t -> forall x, pt_in x t -> match x with PA y => vpos y | _ => True end).
  { intros t Ht [k n|y] Hx; auto. destruct Hx as (m & Hm & Hy). apply (Ht m Hm); auto. }
  split; intros (x & Hx & Ex).
  - apply (H x (V s' Ps x Hx)) in Hx as (w & Hw & Ew). replace w with z in Hw by congruence. apply M in Hw as (x' & Hx' & Ex'). eauto.
  - exists x. split; auto. apply (H x (V s P1 x Hx)). exists z. split; auto. apply M. eauto.
Qed.

(** A fold of unions. *)
Lemma or_fold : forall l h, a_ok dom std_rest h -> (forall x, In x l -> a_ok dom std_rest x) ->
  let r := fold_left (fun acc x => h_or O std_all acc x) l h in
  a_ok dom std_rest r /\ forall p, a_space dom p -> (a_mem p r <-> a_mem p h \/ exists x, In x l /\ a_mem p x).
Proof.
  induction l as [|x l IH]; intros h Hh H; cbv zeta; cbn [fold_left].
  - split; auto. intros p Hp. cbn [In]. split; [auto|]. intros [?|(x & [] & _)]; auto.
  - destruct (h_or_spec O val_mem (val_valid dom) L false std_all h x) as [A [_ B]]; auto.
    { apply (ok_nodup _ _ _ _ _ _ K). } { discriminate. } { apply H. left; auto. }
    destruct (IH (h_or O std_all h x) A) as [A' B']. { intros y Hy. apply H. right; auto. }
    split; auto. intros p Hp. rewrite B' by auto. unfold a_mem at 1. rewrite (B p Hp). cbn [In]. split.
    + intros [[?|?]|(y & ? & ?)]; [auto|right; eauto|right; eauto].
    + intros [?|(y & [<-|?] & ?)]; [auto|auto|right; eauto].
Qed.

(** Well-formed dictionaries. *)
Definition in_range (a b : Z) (s : iset) : Prop := canonical s /\ forall z, mem z s -> (a <= z <= b)%Z.
Definition word_set (d : dim) (v : val) : Prop := val_valid dom d v /\ exists x, x <> 0%Z /\ val_mem x v.
Record dict_ok (k : cdict) : Prop := {
  dk_src : opt (pok vis) (k_src k);
  dk_dst : opt (pok vis) (k_dst k);
  dk_proto : opt (in_range 0 255) (k_proto k);
  dk_sports : opt (in_range 1 65535) (k_sports k);
  dk_dports : opt (fun p => in_range 1 65535 (port_set p) /\ excluded_named_ports p = [] /\ (named_ports p <> [] -> k_dst k <> None)) (k_dports k);
  dk_methods : opt (in_range 0 8) (k_methods k);
  dk_hosts : opt (word_set 6) (k_hosts k);
  dk_paths : opt (word_set 7) (k_paths k);
  dk_type : opt (fun z => 0 <= z <= 254)%Z (k_type k);
  dk_code : opt (fun z => 0 <= z <= 255)%Z (k_code k)
}.
Context (E6 : dom 6 = VN true []) (E7 : dom 7 = VN true []) (Ewords : forall d u m, dom d = VN u m -> d = 6 \/ d = 7).

Lemma range_valid : forall d a b s, dom d = VI [Ivl a b] -> in_range a b s -> val_valid dom d (VI s).
Proof.
  intros d a b s E [C H]. split; [exact C|]. rewrite E. split; [exact I|]. cbn. intros x Hx. apply H in Hx. exists (Ivl a b). split; [left; auto|cbn; lia].
Qed.
Lemma dict_cube_valid : forall k d, dict_ok k -> val_valid dom d (dict_cube dom reg k d).
Proof.
  intros k d H. assert (V0 : val_valid dom d (dom d)) by apply (L_dom _ _ _ L).
  destruct H. destruct d as [|[|[|[|[|[|[|[|[|[|d]]]]]]]]]]; unfold dict_cube, or_dom; [..|auto].
  - destruct (k_src k); auto. apply (peers_val_valid _ _ _ _ _ _ K); auto. apply (ok_src _ _ _ _ _ _ K).
  - destruct (k_dst k); auto. apply (peers_val_valid _ _ _ _ _ _ K); auto. apply (ok_dst _ _ _ _ _ _ K).
  - destruct (k_proto k); auto. apply (range_valid 2 0 255); auto. exact (ok_protos _ _ _ _ _ _ K).
  - destruct (k_sports k); auto. apply (range_valid 3 1 65535); auto.
  - destruct (k_dports k); auto. apply (range_valid 4 1 65535); auto. apply dk_dports0.
  - destruct (k_methods k); auto. apply (range_valid 5 0 8); auto.
  - destruct (k_hosts k); auto. apply dk_hosts0.
  - destruct (k_paths k); auto. apply dk_paths0.
  - destruct (k_type k) as [z|]; auto. apply (range_valid 8 0 254); auto. cbn [opt] in dk_type0. split; [cbn; lia|]. intros x. rewrite mem_cons, mem_nil. cbn [lo hi]. lia.
  - destruct (k_code k) as [z|]; auto. apply (range_valid 9 0 255); auto. cbn [opt] in dk_code0. split; [cbn; lia|]. intros x. rewrite mem_cons, mem_nil. cbn [lo hi]. lia.
Qed.
Lemma dict_words : forall k, dict_ok k -> words_ok (dict_cube dom reg k).
Proof.
  intros k H e u m Ee. split; [apply dict_cube_valid; auto|].
  assert (F : forall d, dom d = VN true [] -> exists x, x <> 0%Z /\ val_mem x (dom d)).
  { intros d Ed. exists 1%Z. split; [discriminate|]. rewrite Ed. cbn. rewrite mem_nil. tauto. }
  destruct H. destruct (Ewords e u m Ee) as [->| ->]; unfold dict_cube, or_dom.
  - destruct (k_hosts k); [apply dk_hosts0|auto].
  - destruct (k_paths k); [apply dk_paths0|auto].
Qed.

(** The conditions of a dictionary other than on the destination port. *)
Definition dict_rest (k : cdict) (p : dim -> Z) : Prop :=
  opt (pt_in (a_src reg p)) (k_src k) /\ opt (pt_in (a_dst reg p)) (k_dst k) /\ opt (mem (p 2)) (k_proto k) /\ opt (mem (p 3)) (k_sports k) /\
  opt (mem (p 5)) (k_methods k) /\ opt (val_mem (p 6)) (k_hosts k) /\ opt (val_mem (p 7)) (k_paths k) /\
  opt (eq (p 8)) (k_type k) /\ opt (eq (p 9)) (k_code k).
Lemma dict_cube_mem : forall k p, dict_ok k -> a_space dom p ->
  ((forall d, In d std_all -> d <> 4 -> val_mem (p d) (dict_cube dom reg k d)) <-> dict_rest k p) /\
  (val_mem (p 4) (dict_cube dom reg k 4) <-> opt (fun q => mem (p 4) (port_set q)) (k_dports k)).
Proof.
  intros k p H Hp. assert (F : forall d, val_mem (p d) (dom d)) by exact Hp.
  assert (Ps : mem (p 0) D) by (pose proof (F 0) as X; pose proof (ok_src _ _ _ _ _ _ K) as Y; unfold d_src in Y; rewrite Y in X; exact X).
  assert (Pd : mem (p 1) D) by (pose proof (F 1) as X; pose proof (ok_dst _ _ _ _ _ _ K) as Y; unfold d_dst in Y; rewrite Y in X; exact X).
  assert (G : forall X d (f : X -> val) (Q : X -> Prop) o, (forall x, o = Some x -> (val_mem (p d) (f x) <-> Q x)) -> (val_mem (p d) (or_dom dom d f o) <-> opt Q o)).
  { intros X d f Q [x|] Hx; cbn [or_dom opt]; [apply Hx; auto|]. split; auto. }
  assert (Eq : forall z x, mem x [Ivl z z] <-> x = z) by (intros z x; rewrite mem_cons, mem_nil; cbn [lo hi]; lia).
  destruct H.
  assert (G0 : val_mem (p 0) (dict_cube dom reg k 0) <-> opt (pt_in (a_src reg p)) (k_src k)).
  { apply G. intros s E. rewrite E in dk_src0. apply (peers_val_mem _ _ _ _ _ _ K); auto. }
  assert (G1 : val_mem (p 1) (dict_cube dom reg k 1) <-> opt (pt_in (a_dst reg p)) (k_dst k)).
  { apply G. intros s E. rewrite E in dk_dst0. apply (peers_val_mem _ _ _ _ _ _ K); auto. }
  assert (G2 : val_mem (p 2) (dict_cube dom reg k 2) <-> opt (mem (p 2)) (k_proto k)) by (apply G; intros; reflexivity).
  assert (G3 : val_mem (p 3) (dict_cube dom reg k 3) <-> opt (mem (p 3)) (k_sports k)) by (apply G; intros; reflexivity).
  assert (G4 : val_mem (p 4) (dict_cube dom reg k 4) <-> opt (fun q => mem (p 4) (port_set q)) (k_dports k)) by (apply G; intros; reflexivity).
  assert (G5 : val_mem (p 5) (dict_cube dom reg k 5) <-> opt (mem (p 5)) (k_methods k)) by (apply G; intros; reflexivity).
  assert (G6 : val_mem (p 6) (dict_cube dom reg k 6) <-> opt (val_mem (p 6)) (k_hosts k)) by (apply G; intros; reflexivity).
  assert (G7 : val_mem (p 7) (dict_cube dom reg k 7) <-> opt (val_mem (p 7)) (k_paths k)) by (apply G; intros; reflexivity).
  assert (G8 : val_mem (p 8) (dict_cube dom reg k 8) <-> opt (eq (p 8)) (k_type k)) by (apply G; intros; apply Eq).
  assert (G9 : val_mem (p 9) (dict_cube dom reg k 9) <-> opt (eq (p 9)) (k_code k)) by (apply G; intros; apply Eq).
  split; [|exact G4]. unfold dict_rest. split.
  - intros H. repeat apply conj; [apply G0|apply G1|apply G2|apply G3|apply G5|apply G6|apply G7|apply G8|apply G9];
      apply H; try discriminate; unfold std_all; cbn [In]; tauto.
  - intros (H0 & H1 & H2 & H3 & H5 & H6 & H7 & H8 & H9) d Hd N4. unfold std_all in Hd. cbn [In] in Hd.
    destruct Hd as [<-|[<-|[<-|[<-|[<-|[<-|[<-|[<-|[<-|[<-|[]]]]]]]]]]];
      [apply G0|apply G1|apply G2|apply G3|destruct (N4 eq_refl)|apply G5|apply G6|apply G7|apply G8|apply G9]; auto.
Qed.

Theorem conns_of_spec : forall k, dict_ok k ->
  a_ok dom std_rest (conns_of dom reg named k) /\
  forall p, a_space dom p ->
    (a_mem p (conns_of dom reg named k) <->
     dict_rest k p /\ opt (fun q => dport_in named (fun pr => val_mem pr (dict_cube dom reg k 2)) (a_dst reg p) q (p 4)) (k_dports k)).
Proof.
  intros k H. pose proof (ok_nodup _ _ _ _ _ _ K) as N. set (c := dict_cube dom reg k).
  assert (Vc : forall d, val_valid dom d (c d)) by (intros d; apply dict_cube_valid; auto).
  assert (NE : std_all <> []) by discriminate.
  destruct (make_props_spec O val_mem (val_valid dom) L std_all tempty c N NE (fun d _ => Vc d) (fun d _ => tempty_ok d)) as [A B].
  assert (B' : forall p, a_space dom p -> (a_mem p (make_props O tempty std_all c) <-> dict_rest k p /\ opt (fun q => mem (p 4) (port_set q)) (k_dports k))).
  { intros p Hp. destruct (dict_cube_mem k p H Hp) as [M1 M2]. unfold a_mem. rewrite (B p Hp). rewrite <- M1, <- M2. split.
    - intros X. split; [intros d Hd _; auto|]. apply X. unfold std_all. cbn [In]. tauto.
    - intros [X Y] d Hd. destruct (Nat.eq_dec d 4) as [->|]; auto. }
  unfold conns_of. change (val_ops dom) with O. fold c. rewrite (named_words c _ _ (dict_words k H)).
  assert (Ex : excl_of k = []). { unfold excl_of. pose proof (dk_dports k H) as X. destruct (k_dports k) as [q|]; auto. apply X. }
  rewrite Ex. destruct (k_dports k) as [q|] eqn:Eq.
  2: { unfold names_of. rewrite Eq. cbn [make_conn_props]. split; [exact A|]. intros p Hp. rewrite B' by auto. cbn [opt]. tauto. }
  cbn [opt] in *. unfold names_of. rewrite Eq. pose proof (dk_dports k H) as X. rewrite Eq in X. cbn [opt] in X. destruct X as (Xr & _ & Xd).
  destruct (named_ports q) as [|nm0 nms] eqn:En.
  { cbn [make_conn_props]. split; [exact A|]. intros p Hp. rewrite B' by auto. unfold dport_in. rewrite En. split.
    - intros [? ?]. split; auto.
    - intros [? [?|(nm & pr & [] & _)]]. auto. }
  destruct (k_dst k) as [dst|] eqn:Ed; [|exfalso; apply Xd; congruence].
  pose proof (dk_dst k H) as Pd. rewrite Ed in Pd. cbn [opt] in Pd.
  destruct (back_and_forth dst Pd) as (l & s' & El & Es & Ps & M).
  unfold make_conn_props. rewrite <- En.
  replace (match named_ports q with [] => make_props O tempty std_all c
           | _ :: _ => fold_left (named_step O tempty ports_val 4 1 std_all c (named_ports q) [] (c 2)) (port_peers reg named (c 1))
                 (if vbool O (c 4) then make_props O tempty std_all c else hempty Conn std_all) end)
    with (fold_left (named_step O tempty ports_val 4 1 std_all c (named_ports q) [] (c 2)) (port_peers reg named (c 1))
                 (if vbool O (c 4) then make_props O tempty std_all c else hempty Conn std_all)) by (rewrite En; reflexivity).
  set (h0 := if vbool O (c 4) then make_props O tempty std_all c else hempty Conn std_all).
  assert (H0 : a_ok dom std_rest h0 /\ forall p, a_space dom p -> (a_mem p h0 <-> dict_rest k p /\ mem (p 4) (port_set q))).
  { unfold h0. destruct (vbool O (c 4)) eqn:Bv; [split; [exact A|exact B']|]. split; [apply hempty_obj; [exact NE|discriminate]|].
    intros p Hp. split; [intro F; exfalso; revert F; apply empty_denot; auto|].
    intros [_ F]. exfalso. assert (vbool O (c 4) = true); [|congruence].
    apply (L_bool _ _ _ L 4); auto. exists (p 4). unfold c, dict_cube, or_dom. rewrite Eq. exact F. }
  assert (E1 : c 1 = VI l) by (unfold c, dict_cube, or_dom, peers_val; rewrite Ed, El; reflexivity).
  rewrite E1. cbn [port_peers]. rewrite Es.
  assert (G : forall t h, pok vis t -> a_ok dom std_rest h ->
    let r := fold_left (named_step O tempty ports_val 4 1 std_all c (named_ports q) [] (c 2))
                (map (fun p => PeerInfo (peers_val reg [p]) (if is_block p then [] else named p)) t) h in
    a_ok dom std_rest r /\ forall p, a_space dom p -> (a_mem p r <-> a_mem p h \/
       exists x, In x t /\ named_pt val_mem 4 1 std_all c (c 2) (named_ports q) (PeerInfo (peers_val reg [x]) (if is_block x then [] else named x)) p)).
  { induction t as [|x t IH]; intros h Pt Hh; cbv zeta; cbn [map fold_left].
    - split; auto. intros p Hp. split; [auto|]. intros [?|(x & [] & _)]; auto.
    - assert (Px : pok vis [x]).
      { split; [intros m [->|[]]; apply Pt; left; auto|]. intros kk n [->|[]]. apply Pt. left; auto. }
      assert (Pt' : pok vis t) by (split; [intros m Hm; apply Pt; right; auto|intros kk n Hm; apply Pt; right; auto]).
      set (pi := PeerInfo (peers_val reg [x]) (if is_block x then [] else named x)).
      destruct (named_cube O val_mem (val_valid dom) L ports_val tempty 4 1 2 std_all N) with (c := c) (peer := pi) (names := named_ports q) as [C1 C2];
        try (unfold std_all; cbn [In]; tauto); try discriminate; auto.
      { intros d _. apply tempty_ok. }
      { intros l0 Hl. apply ports_val_ok. intros y Hy. apply Hl in Hy. cbn in Hy. rewrite E4 in Hy. cbn in Hy. rewrite mem_cons, mem_nil in Hy. cbn in Hy. lia. }
      { split; [apply (peers_val_valid _ _ _ _ _ _ K); auto; apply (ok_dst _ _ _ _ _ _ K)|]. intros nm n pr E. cbn. rewrite E4. cbn.
        exists (Ivl 1 65535). split; [left; auto|]. cbn. unfold pi in E. cbn [pports] in E. destruct (is_block x); [discriminate|]. apply Hn in E. lia. }
      assert (Hs : a_ok dom std_rest (named_step O tempty ports_val 4 1 std_all c (named_ports q) [] (c 2) h pi) /\
         forall p, a_space dom p -> (a_mem p (named_step O tempty ports_val 4 1 std_all c (named_ports q) [] (c 2) h pi) <->
           a_mem p h \/ named_pt val_mem 4 1 std_all c (c 2) (named_ports q) pi p)).
      { unfold named_step. cbn [resolve_named flat_map]. destruct (resolve_named O (named_ports q) pi (c 2)) as [|y ys] eqn:Er.
        - split; auto. intros p Hp. split; [auto|]. intros [?|F]; auto. exfalso. revert F.
          apply (named_none O val_mem (val_valid dom) L 4 1 2 std_all); auto. unfold std_all; cbn [In]; tauto.
        - destruct (h_or_spec O val_mem (val_valid dom) L false std_all h _ N NE Hh C1) as [D1 [_ D2]]. split; [exact D1|].
          intros p Hp. unfold a_mem. rewrite (D2 p Hp), (C2 p Hp). tauto. }
      destruct Hs as [S1 S2]. destruct (IH _ Pt' S1) as [R1 R2]. split; [exact R1|]. intros p Hp. rewrite R2, S2 by auto. cbn [In]. split.
      + intros [[?|?]|(y & ? & ?)]; [auto|right; exists x; auto|right; eauto].
      + intros [?|(y & [<-|?] & ?)]; [auto|auto|right; eauto]. }
  destruct (G s' h0 Ps (proj1 H0)) as [G1 G2]. split; [exact G1|]. intros p Hp. rewrite G2, (proj2 H0 p Hp) by auto.
  destruct (dict_cube_mem k p H Hp) as [M1 _].
  assert (Pdd : mem (p 1) D) by (pose proof (Hp 1) as X; cbn in X; pose proof (ok_dst _ _ _ _ _ _ K) as Y; unfold d_dst in Y; rewrite Y in X; exact X).
  unfold dport_in. split.
  - intros [[R F]|(x & Hx & F1 & F2 & nm & pr & F3 & F4 & F5)]; [split; auto|].
    assert (Px : pok vis [x]).
    { split; [intros m [->|[]]; apply Ps; auto|]. intros kk n [->|[]]. apply Ps. auto. }
    cbn [pv pports] in *. apply (peers_val_mem _ _ _ _ _ _ K) in F2; auto.
    assert (Hd : pt_in (point_of_index reg (p 1)) dst).
    { apply M; auto. destruct (point_of_index reg (p 1)) as [kk n|y].
      - destruct F2 as [->|[]]. exact Hx.
      - destruct F2 as (m & [->|[]] & Hm). exists m. auto. }
    split.
    + apply M1. intros d Hd' N4. destruct (Nat.eq_dec d 1) as [->|N1]; [|apply F1; auto]. fold c. rewrite E1.
      pose proof (proj2 (peers_val_mem _ _ _ _ _ _ K dst (p 1) Pd Pdd) Hd) as Y. unfold peers_val in Y. rewrite El in Y. exact Y.
    + right. exists nm, pr. split; auto. split; auto. destruct x as [kk n|m]; cbn [is_block] in F4; [|discriminate].
      exists kk, n. split; auto. unfold a_dst, d_dst. destruct (point_of_index reg (p 1)) as [kk' n'|y].
      * destruct F2 as [F2|[]]. congruence.
      * destruct F2 as (m & [F2|[]] & _). discriminate.
  - intros [R [F|(nm & pr & F1 & F2 & kk & n & F3 & F4)]]; [left; auto|]. right.
    assert (Hd : pt_in (point_of_index reg (p 1)) dst).
    { destruct R as (_ & R & _). rewrite Ed in R. exact R. }
    apply M in Hd; auto. unfold a_dst, d_dst in F3. rewrite F3 in Hd. cbn [pt_in] in Hd. exists (Named kk n). split; auto.
    assert (Px : pok vis [Named kk n]).
    { split; [intros m [Y|[]]; discriminate|]. intros kk' n' [Y|[]]. injection Y as <- <-. apply Ps; auto. }
    split; [|split].
    + intros d Hd' N4 _. apply (proj2 M1 R); auto.
    + cbn [pv]. apply (peers_val_mem _ _ _ _ _ _ K); auto. rewrite F3. left; auto.
    + exists nm, pr. cbn [pports is_block]. auto.
Qed.

(** ** Empty results are the empty object *)
Definition regular_conns (h : hc val) : Prop := h = hempty Conn std_all \/ hbool h = true.
Lemma props_cases : forall c, (forall d, val_valid dom d (c d)) -> regular_conns (make_props O tempty std_all c).
Proof.
  intros c Vc. pose proof (ok_nodup _ _ _ _ _ _ K) as N. assert (NE : std_all <> []) by discriminate.
  destruct (make_props_spec O val_mem (val_valid dom) L std_all tempty c N NE (fun d _ => Vc d) (fun d _ => tempty_ok d)) as [A B].
  unfold regular_conns. destruct (hbool (make_props O tempty std_all c)) eqn:Bh; auto. left.
  destruct (ccube_is_empty O tempty std_all c) eqn:Ee; [unfold make_props; rewrite Ee; reflexivity|]. exfalso.
  assert (Hne : forall e, In e std_all -> exists x, val_mem x (c e)).
  { intros e He. apply (L_bool _ _ _ L e); auto. destruct (vbool (val_ops dom) (c e)) eqn:Bv; auto. exfalso.
    assert (X : ccube_is_empty O tempty std_all c = true); [|congruence]. unfold ccube_is_empty. apply existsb_exists. exists e. split; auto.
    apply (L_eqb _ _ _ L e); [auto|apply tempty_ok|]. intros x. split.
    - intros Hx. exfalso. assert (vbool (val_ops dom) (c e) = true); [|congruence]. apply (L_bool _ _ _ L e); eauto.
    - intros Hx. destruct (proj2 (tempty_ok e) x Hx). }
  pose (p := fun e => if mem_dim e std_all then vrep O (c e) else vrep O (dom e)).
  assert (Hin : a_space dom p).
  { intros e. unfold p. destruct (mem_dim e std_all) eqn:Em.
    - apply mem_dim_In in Em. apply (L_sub_dom _ _ _ L e (c e)); auto. apply (L_rep _ _ _ L e); auto.
    - apply (L_rep _ _ _ L e); [apply (L_dom _ _ _ L)|apply (L_dom_ne _ _ _ L)]. }
  assert (Ht : hbool (make_props O tempty std_all c) = true); [|congruence].
  apply (hbool_spec O val_mem (val_valid dom) L false std_all _ N A). exists p. split; [exact Hin|]. apply B; [exact Hin|].
  intros e He. unfold p. rewrite (proj2 (mem_dim_In _ _) He). apply (L_rep _ _ _ L e); auto.
Qed.
Lemma or_regular : forall x y, a_ok dom std_rest x -> a_ok dom std_rest y -> regular_conns x -> regular_conns y ->
  regular_conns (h_or O std_all x y).
Proof.
  intros x y Hx Hy Rx Ry. pose proof (cube_laws dom std_rest reg vis D [Ivl 0 255] K) as W.
  pose proof (l_or_ok _ _ _ _ _ _ _ _ _ W x y Hx Hy) as Ho. change (c_or _ x y) with (h_or O std_all x y) in Ho.
  assert (Bo : forall z, a_ok dom std_rest z -> (hbool z = true <-> exists pt, a_space dom pt /\ a_mem pt z)).
  { intros z Hz. exact (l_bool _ _ _ _ _ _ _ _ _ W z Hz). }
  assert (M : forall pt, a_space dom pt -> (a_mem pt (h_or O std_all x y) <-> a_mem pt x \/ a_mem pt y)).
  { intros pt Sp. exact (l_or _ _ _ _ _ _ _ _ _ W x y pt Hx Hy Sp). }
  destruct (hbool y) eqn:By.
  - right. apply Bo; auto. apply Bo in By as (pt & Sp & Hp); auto. exists pt. split; auto. apply M; auto.
  - assert (E : h_or O std_all x y = x).
    { apply (l_or_empty_r _ _ _ _ _ _ _ _ _ W x y Hx Hy). intros pt Sp Hp. assert (hbool y = true); [|congruence]. apply Bo; eauto. }
    rewrite E. exact Rx.
Qed.
Theorem conns_of_regular : forall k, dict_ok k -> regular_conns (conns_of dom reg named k).
Proof.
  intros k H. pose proof (ok_nodup _ _ _ _ _ _ K) as N. set (c := dict_cube dom reg k).
  assert (Vc : forall d, val_valid dom d (c d)) by (intros d; apply dict_cube_valid; auto).
  assert (NE : std_all <> []) by discriminate.
  unfold conns_of. change (val_ops dom) with O. fold c. rewrite (named_words c _ _ (dict_words k H)).
  assert (Ex : excl_of k = []). { unfold excl_of. pose proof (dk_dports k H) as X. destruct (k_dports k) as [q|]; auto. apply X. }
  rewrite Ex. destruct (names_of k) as [|nm0 nms] eqn:En; [apply props_cases; auto|]. cbn [make_conn_props].
  set (h0 := if vbool O (c 4) then make_props O tempty std_all c else hempty Conn std_all).
  assert (H0 : a_ok dom std_rest h0 /\ regular_conns h0).
  { unfold h0. destruct (vbool O (c 4)).
    - split; [|apply props_cases; auto]. apply (make_props_spec O val_mem (val_valid dom) L std_all tempty c N NE (fun d _ => Vc d) (fun d _ => tempty_ok d)).
    - split; [apply hempty_obj; [exact NE|discriminate]|left; auto]. }
  unfold names_of in En. destruct (k_dports k) as [q|] eqn:Eq; [|discriminate].
  pose proof (dk_dports k H) as X. rewrite Eq in X. cbn [opt] in X. destruct X as (Xr & _ & Xd).
  destruct (k_dst k) as [dst|] eqn:Ed; [|exfalso; apply Xd; [rewrite En; discriminate|auto]].
  pose proof (dk_dst k H) as Pd. rewrite Ed in Pd. cbn [opt] in Pd.
  destruct (back_and_forth dst Pd) as (l & s' & El & Es & Ps & _).
  assert (E1 : c 1 = VI l) by (unfold c, dict_cube, or_dom, peers_val; rewrite Ed, El; reflexivity).
  rewrite E1. cbn [port_peers]. rewrite Es. clear Es El E1.
  revert H0. generalize h0. clear h0. induction s' as [|x t IH]; intros h [Hh Rh]; cbn [map fold_left]; auto.
  apply IH. { split; [intros m Hm; apply Ps; right; auto|intros kk n Hm; apply Ps; right; auto]. }
  assert (Px : pok vis [x]).
  { split; [intros m [->|[]]; apply Ps; left; auto|]. intros kk n [->|[]]. apply Ps. left; auto. }
  set (pi := PeerInfo (peers_val reg [x]) (if is_block x then [] else named x)).
  unfold named_step. destruct (resolve_named O [] pi (c 2)) as [|w ws] eqn:Er0; [|discriminate Er0].
  destruct (resolve_named O (nm0 :: nms) pi (c 2)) as [|y ys] eqn:Er; [split; auto|].
  assert (G2 : forall nm n pr, assoc_s nm (pports pi) = Some (n, pr) -> (1 <= n <= 65535)%Z).
  { intros nm n pr E. unfold pi in E. cbn [pports] in E. destruct (is_block x); [discriminate|]. apply Hn in E. exact E. }
  assert (V4 : val_valid dom 4 (ports_val (y :: ys))).
  { apply ports_val_ok. intros z Hz. rewrite <- Er in Hz. apply (resolve_named_spec O val_mem (val_valid dom) L _ pi (c 2) z 2) in Hz; auto.
    destruct Hz as (nm & pr & _ & E & _). apply (G2 nm z pr E). }
  assert (V1 : val_valid dom 1 (pv pi)) by (apply (peers_val_valid _ _ _ _ _ _ K); auto; apply (ok_dst _ _ _ _ _ _ K)).
  assert (Vs : forall d, val_valid dom d (ccube_set (ccube_set c 4 (ports_val (y :: ys))) 1 (pv pi) d)).
  { intros d. unfold ccube_set. destruct (Nat.eqb_spec d 1) as [->|]; auto. destruct (Nat.eqb_spec d 4) as [->|]; auto. }
  pose proof (props_cases _ Vs) as R1.
  destruct (make_props_spec O val_mem (val_valid dom) L std_all tempty _ N NE (fun d _ => Vs d) (fun d _ => tempty_ok d)) as [A1 _].
  split; [|apply or_regular; auto].
  apply (h_or_spec O val_mem (val_valid dom) L false std_all h _ N NE Hh A1).
Qed.
End Facts.

(** For the dimension table of the tool. *)
Lemma std_words : forall d u m, std_dom d = VN u m -> d = 6 \/ d = 7.
Proof. intros d u m E. destruct d as [|[|[|[|[|[|[|[|[|[|d]]]]]]]]]]; try discriminate; auto. Qed.
Definition std_conns_of_spec reg (R : reg_ok reg) named Hn :=
  conns_of_spec std_dom reg reg std_peers (std_alg reg R) eq_refl eq_refl eq_refl eq_refl eq_refl named Hn eq_refl eq_refl std_words.
Definition std_conns_of_regular reg (R : reg_ok reg) named Hn :=
  conns_of_regular std_dom reg reg std_peers (std_alg reg R) eq_refl eq_refl eq_refl eq_refl eq_refl named Hn eq_refl eq_refl std_words.
