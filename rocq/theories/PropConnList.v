(** * C65: the list of connections without firewall rules says exactly which connections there are. *)
From Coq Require Import ZArith List Bool Arith Lia String Ascii.
From Verif Require Import IntervalModel IntervalFacts HyperModel HyperFacts HyperTop HyperInst PropHyperCube ConnModel ConnFacts TextModel TextFacts PortProtoModel PeerModel PeerFacts PeerSetFacts
                          PolicyModel PolicyLaws PolicyFacts LayerFacts OrderFacts ConnAlg StdDims PropLayers QueryModel QueryFacts QueryAlg QuerySpecs YamlModel ClusterModel
                          FWModel FWFacts FWAlg FWLabels PropFW MapModel MapFacts GraphModel ConnTextModel ConnTextFacts ConnListModel ConnListFacts PropMap PropQueries.
Import ListNotations.
Local Open Scope string_scope.
Local Open Scope list_scope.
Local Open Scope nat_scope.

Section ConnList.
Context (reg vis : list peer) (R : reg_ok reg) (HV : container reg vis) (NE : vis <> []).
Let dom := query_dom reg vis.
Let QK := query_alg reg vis R HV NE.
Local Notation space := (a_space dom).
Local Notation from := (a_src reg).
Local Notation to := (a_dst reg).
(** Texts of hosts and paths with a reader [ws]; names of peers. *)
Context (allp : peerset) (word_text : dim -> val -> string) (ws : dim -> string -> Z -> Prop) (RD : readable dom word_text ws inner).
Context (name : peer -> string) (NM : forall p, line_peer vis p -> plain_name (name p)).
Lemma dom_above : forall d, 2 <= d -> dom d = std_dom d.
Proof using. intros [|[|d]] H; [lia|lia|reflexivity]. Qed.

(** C65.  For every set of connections [h] and restriction to TCP or to non-TCP connections a text is printed.  Every line "s => d : c" of it comes from two different
    peers with the names s and d, such that all the connections of c between these two are in [h].  Every connection of [h] (with a non-empty host and path) goes from
    one peer to another for which there is a line with their names and with this connection, unless the peers are the same or have the same name (and
    [excl] asks to leave these out). *)
Theorem C65_lines : forall restr h header excl, q_ok dom std_rest h -> fine_header header ->
  exists m t, props_to_peers dom reg allp restr h = Some m /\ list_text dom word_text name header excl m = Some t /\
  (forall s d c, lists t s d c -> exists p q, name p = s /\ name q = d /\ p <> q /\ (excl = true -> s <> d) /\ line_peer vis p /\ line_peer vis q /\
     forall pt, space pt -> opt (eq (a_tcp pt)) restr -> of_peer (from pt) p -> of_peer (to pt) q -> meaning ws c pt -> a_mem pt h) /\
  (forall pt, space pt -> pt 6 <> 0%Z -> pt 7 <> 0%Z -> a_mem pt h -> exists p q, line_peer vis p /\ line_peer vis q /\ of_peer (from pt) p /\ of_peer (to pt) q /\
     (p = q \/ (excl = true /\ name p = name q) \/ exists c, lists t (name p) (name q) c /\ meaning ws c pt)).
Proof using R HV NE RD NM.
  intros restr h header excl Kh Fh. destruct (dom_words reg vis) as (W6 & W7 & Ww).
  destruct (list_ok dom reg vis _ QK W6 W7 Ww dom_above allp word_text ws name RD NM restr h header excl Kh Fh) as (m & t & H1 & H2 & _ & H3 & H4).
  exists m, t. split; [exact H1|]. split; [exact H2|]. split; [exact H3|]. intros pt Sp N6 N7 M. exact (H4 pt Sp (conj N6 N7) M).
Qed.

(** ** Names that say who is meant *)
Context (who : string -> point -> Prop) (WH : forall p, line_peer vis p -> forall x, who (name p) x <-> of_peer x p).
Definition says_conn (t : string) (pt : conn) : Prop := exists s d c, lists t s d c /\ who s (from pt) /\ who d (to pt) /\ meaning ws c pt.
(** With names that determine the peers, the text lists exactly the connections, apart from those of an endpoint to itself and those between two addresses of a range. *)
Theorem C65_list : forall restr h header excl, q_ok dom std_rest h -> fine_header header ->
  exists m t, props_to_peers dom reg allp restr h = Some m /\ list_text dom word_text name header excl m = Some t /\
  (forall pt, space pt -> opt (eq (a_tcp pt)) restr -> says_conn t pt -> a_mem pt h) /\
  (forall pt, space pt -> pt 6 <> 0%Z -> pt 7 <> 0%Z -> a_mem pt h -> says_conn t pt \/ from pt = to pt \/ exists a b, from pt = PA a /\ to pt = PA b).
Proof using R HV NE RD NM WH.
  intros restr h header excl Kh Fh. destruct (C65_lines restr h header excl Kh Fh) as (m & t & H1 & H2 & H3 & H4). exists m, t. split; [exact H1|]. split; [exact H2|]. split.
  - intros pt Sp Ht (s & d & c & Hl & Hs & Hd & Hc). destruct (H3 s d c Hl) as (p & q & <- & <- & _ & _ & Lp & Lq & M). apply (M pt Sp Ht); [apply WH; auto|apply WH; auto|exact Hc].
  - intros pt Sp N6 N7 M. destruct (H4 pt Sp N6 N7 M) as (p & q & Lp & Lq & Op & Oq & Ch).
    assert (Same : name p = name q -> from pt = to pt \/ exists a b, from pt = PA a /\ to pt = PA b).
    { intros E. assert (Oq' : of_peer (from pt) q) by (apply WH; [exact Lq|]; rewrite <- E; apply WH; auto). unfold of_peer, pt_in in Oq, Oq'. destruct (from pt) as [k n|y], (to pt) as [k' n'|y'].
      - left. destruct Oq as [Oq|[]], Oq' as [Oq'|[]]. congruence.
      - destruct Oq' as [Oq'|[]]. destruct Oq as (l & [Oq|[]] & _). congruence.
      - destruct Oq as [Oq|[]]. destruct Oq' as (l & [Oq'|[]] & _). congruence.
      - right. exists y, y'. auto. }
    destruct Ch as [->|[[_ E]|(c & Hl & Hc)]]; [right; apply Same; reflexivity|right; apply Same; exact E|]. left. exists (name p), (name q), c. split; [exact Hl|]. split; [apply WH; auto|]. split; [apply WH; auto|exact Hc].
Qed.

(** ** The connectivity map *)
Context (h6 : policy -> bool) (cl : cluster) (owner workload : peer -> string) (LP : labels_plain cl vis).
Let A := cube_ops dom std_all reg.
Let Q := cube_qops dom std_all reg.
Let L := q_claws dom std_rest reg vis _ _ QK.
Let QL := q_qlaws dom std_rest reg vis _ _ QK.
Let NB : forall p, In p vis -> is_block p = false := fun p H => proj2 (HV p H).
Definition map_text (flag : bool) (s : subset) (g : config) : option string := parts_text dom reg allp word_text name (map_parts cl owner workload A Q h6 flag s g).
(** A connection in the text: in a line of a section for connections of its kind. *)
Definition map_says (t : string) (pt : conn) : Prop := exists restr s d c, In (restr, (s, d, c)) (sections None (split newline t)) /\ opt (eq (a_tcp pt)) restr /\ who s (from pt) /\ who d (to pt) /\ meaning ws c pt.
Lemma one_part : forall restr h, q_ok dom std_rest h -> exists ls,
  part_text dom reg allp word_text name restr h = Some (join nl (header_lines (part_header restr) ++ ls)) /\
  Forall (fun l => has_char newline l = false) (header_lines (part_header restr) ++ ls) /\ (forall l, In l ls -> read_line l <> None) /\
  (forall pt s d c, space pt -> opt (eq (a_tcp pt)) restr -> (exists l, In l ls /\ read_line l = Some (s, d, c)) -> who s (from pt) -> who d (to pt) -> meaning ws c pt -> a_mem pt h) /\
  (forall pt, space pt -> pt 6 <> 0%Z -> pt 7 <> 0%Z -> a_mem pt h ->
     (exists s d c, (exists l, In l ls /\ read_line l = Some (s, d, c)) /\ who s (from pt) /\ who d (to pt) /\ meaning ws c pt) \/ from pt = to pt \/ exists a b, from pt = PA a /\ to pt = PA b).
Proof using R HV NE RD NM WH.
  intros restr h Kh. destruct (dom_words reg vis) as (W6 & W7 & Ww).
  assert (Fh : fine_header (part_header restr)) by (intros t E; destruct restr as [[]|]; injection E as <- || discriminate E; split; reflexivity).
  destruct (list_ok dom reg vis _ QK W6 W7 Ww dom_above allp word_text ws name RD NM restr h (part_header restr) true Kh Fh) as (m & t & H1 & H2 & (ls & Et & Fa & Rd) & _).
  destruct (C65_list restr h (part_header restr) true Kh Fh) as (m' & t' & H1' & H2' & S & C). assert (m' = m) by congruence. subst m'. assert (t' = t) by congruence. subst t'.
  exists ls. unfold part_text. rewrite H1. cbn [bind]. rewrite H2. split; [rewrite Et; reflexivity|]. split; [exact Fa|]. split; [exact Rd|].
  assert (Hd : forall l, In l (header_lines (part_header restr)) -> read_line l = None) by (intros l Hl; destruct restr as [[]|]; cbn in Hl; [destruct Hl as [<-|[]]|destruct Hl as [<-|[]]|destruct Hl]; reflexivity).
  assert (Li : forall s d c, lists t s d c <-> exists l, In l ls /\ read_line l = Some (s, d, c)).
  { intros s d c. rewrite Et. refine (iff_trans (lists_join _ s d c Fa) _). split; intros (l & Hl & E); exists l; (split; [|exact E]).
    - apply in_app_or in Hl as [Hl|Hl]; [rewrite (Hd l Hl) in E; discriminate E|exact Hl].
    - apply in_or_app. right. exact Hl. }
  split.
  - intros pt s d c Sp Ht Hl Hs Hq Hc. apply (S pt Sp Ht). exists s, d, c. split; [apply Li; exact Hl|auto].
  - intros pt Sp N6 N7 M. destruct (C pt Sp N6 N7 M) as [(s & d & c & Hl & X)|X]; [left|right; exact X]. exists s, d, c. split; [apply Li; exact Hl|exact X].
Qed.
(** The text of the connectivity map: every connection it says is to be shown (allowed, of a chosen endpoint), and every connection to be shown (with a non-empty host and
    path) is said, apart from those of an endpoint to itself. *)
Theorem C65_map : forall flag s g, good reg vis g -> answerable reg vis None g ->
  exists t, map_text flag s g = Some t /\
    (forall pt, space pt -> map_says t pt -> to_show reg vis h6 cl owner workload flag s g pt) /\
    (forall pt, space pt -> pt 6 <> 0%Z -> pt 7 <> 0%Z -> to_show reg vis h6 cl owner workload flag s g pt -> from pt <> to pt -> map_says t pt).
Proof using R HV NE RD NM WH LP.
  intros flag s g G S. pose proof (good_cfg reg vis R HV NE g G) as CG. pose proof (answer_ok reg vis None g S) as CS.
  destruct (map_conns_spec cl owner workload A Q (q_src reg) (q_dst reg) a_tcp (q_space dom) a_mem (q_ok dom std_rest) (a_safe std_rest) vis q_put L QL NB h6 flag s g CG CS) as (K & Sd & P & M & E & _).
  unfold map_text, map_parts. cbv zeta. set (x := fst (map_conns cl owner workload A Q h6 flag s g)) in *. clearbody x.
  assert (T : forall pt, space pt -> (a_mem pt x <-> to_show reg vis h6 cl owner workload flag s g pt)).
  { intros pt Sp. refine (iff_trans (M pt Sp) _). unfold to_show.
    assert (C1 : connects reg vis None g pt <-> QuerySpecs.allows A a_mem g pt) by (exact (connects_on reg vis R HV NE None g pt G S Sp)).
    assert (C2 : relevant (excludes6 h6 flag g) (from pt) (to pt) <-> looks_at reg h6 flag g g pt).
    { rewrite <- looks_rel. unfold excl. rewrite Bool.andb_diag. tauto. }
    pose proof (q_ends _ _ _ _ _ _ _ _ _ _ _ QL pt Sp) as [E1 E2].
    assert (V : forall y, anywhere vis y -> forall k m, y = PN k m -> In (Named k m) vis) by (intros y [H|H] k m ->; [exact H|destruct H]).
    pose proof (chosen_spec vis cl owner workload LP s (from pt) (V _ E1)) as D1. pose proof (chosen_spec vis cl owner workload LP s (to pt) (V _ E2)) as D2. unfold q_src, q_dst in *. fold A. tauto. }
  assert (NA : forall pt, space pt -> a_mem pt x -> ~ exists a b, from pt = PA a /\ to pt = PA b).
  { intros pt Sp Mx (a & b & Ea & Eb). apply (M pt Sp) in Mx as (_ & Re & _). unfold relevant in Re. destruct Re as [Re _]. unfold q_src, q_dst in Re. pose proof (q_ends _ _ _ _ _ _ _ _ _ _ _ QL pt Sp) as [E1 E2]. unfold q_src, q_dst in E1, E2. rewrite Ea in *. rewrite Eb in *.
    apply (proj1 Re). split; [destruct E1 as [X|X]; [destruct X|exact X]|left; destruct E2 as [X|X]; [destruct X|exact X]]. }
  destruct (istio_layers (lays (g_pols g))).
  - destruct (split_tcp_spec A (q_src reg) (q_dst reg) a_tcp (q_space dom) a_mem (q_ok dom std_rest) (a_safe std_rest) vis L x K Sd) as (K1 & K2 & Ms).
    set (x1 := fst (split_by_tcp A x)) in *. set (x2 := snd (split_by_tcp A x)) in *. clearbody x1 x2.
    destruct (one_part (Some true) x1 K1) as (l1 & P1 & F1 & R1 & S1 & C1). destruct (one_part (Some false) x2 K2) as (l2 & P2 & F2 & R2 & S2 & C2).
    unfold parts_text. cbn [mapM fst snd]. rewrite P1, P2. cbn [bind]. eexists. split; [reflexivity|].
    assert (Sec : forall r y, In (r, y) (sections None (split newline (join (nl ++ nl)%string [join nl (header_lines (part_header (Some true)) ++ l1); join nl (header_lines (part_header (Some false)) ++ l2)]))) <->
      (r = Some true /\ exists l, In l l1 /\ read_line l = Some y) \/ (r = Some false /\ exists l, In l l2 /\ read_line l = Some y)).
    { intros r y. change (header_lines (part_header (Some true)) ++ l1) with ("TCP Connections:" :: l1) in *. change (header_lines (part_header (Some false)) ++ l2) with ("non-TCP Connections:" :: l2) in *.
      change (join (nl ++ nl)%string [join nl ("TCP Connections:" :: l1); join nl ("non-TCP Connections:" :: l2)]) with (join nl ("TCP Connections:" :: l1) ++ String newline ("" ++ String newline (join nl ("non-TCP Connections:" :: l2))))%string.
      rewrite !split_app_sep. assert (Q1 : split newline (join nl ("TCP Connections:" :: l1)) = "TCP Connections:" :: l1) by (apply split_join; [discriminate|exact F1]).
      assert (Q2 : split newline (join nl ("non-TCP Connections:" :: l2)) = "non-TCP Connections:" :: l2) by (apply split_join; [discriminate|exact F2]). rewrite Q1, Q2.
      cbn [app sections]. change (String.eqb "TCP Connections:" "TCP Connections:") with true. cbn iota.
      rewrite sections_app by (intros l Hl; apply read_no_header, R1, Hl). rewrite in_app_iff. rewrite (sections_In l1 (Some true) y) by (intros l Hl; apply read_no_header, R1, Hl).
      change (split newline "") with [""]. cbn [app sections]. change (String.eqb "" "TCP Connections:") with false. change (String.eqb "" "non-TCP Connections:") with false. cbn iota. change (read_line "") with (@None (string * string * string)). cbn iota.
      change (String.eqb "non-TCP Connections:" "TCP Connections:") with false. change (String.eqb "non-TCP Connections:" "non-TCP Connections:") with true. cbn iota.
      rewrite (sections_In l2 (Some false) y) by (intros l Hl; apply read_no_header, R2, Hl). tauto. }
    split.
    + intros pt Sp (r & sn & dn & c & Hi & Ht & Hs & Hd & Hc). apply T; [exact Sp|]. apply Sec in Hi as [[-> Hi]|[-> Hi]].
      * assert (X : a_mem pt x1) by exact (S1 pt sn dn c Sp Ht Hi Hs Hd Hc). apply (Ms pt Sp) in X. tauto.
      * assert (X : a_mem pt x2) by exact (S2 pt sn dn c Sp Ht Hi Hs Hd Hc). apply (Ms pt Sp) in X. tauto.
    + intros pt Sp N6 N7 H Nf. apply T in H; [|exact Sp]. pose proof (NA pt Sp H) as Na. destruct (a_tcp pt) eqn:Et.
      * assert (X : a_mem pt x1) by (apply (Ms pt Sp); auto). destruct (C1 pt Sp N6 N7 X) as [(sn & dn & c & Hl & Hs & Hd & Hc)|[Y|Y]]; [|congruence|destruct (Na Y)].
        exists (Some true), sn, dn, c. split; [apply Sec; left; auto|]. split; [exact Et|]. auto.
      * assert (X : a_mem pt x2) by (apply (Ms pt Sp); auto). destruct (C2 pt Sp N6 N7 X) as [(sn & dn & c & Hl & Hs & Hd & Hc)|[Y|Y]]; [|congruence|destruct (Na Y)].
        exists (Some false), sn, dn, c. split; [apply Sec; right; auto|]. split; [exact Et|]. auto.
  - destruct (one_part None x K) as (l1 & P1 & F1 & R1 & S1 & C1). unfold parts_text. cbn [mapM fst snd]. rewrite P1. cbn [bind]. eexists. split; [reflexivity|].
    cbn [join header_lines part_header app] in *.
    assert (Sec : forall r y, In (r, y) (sections None (split newline (join nl l1))) <-> r = None /\ exists l, In l l1 /\ read_line l = Some y).
    { intros r y. refine (iff_trans (sections_In _ None y (split_lines l1 F1 R1) r) _). destruct y as [[a b] c]. pose proof (lists_join l1 a b c F1) as Lj. unfold lists in Lj. rewrite Lj. tauto. }
    split.
    + intros pt Sp (r & sn & dn & c & Hi & Ht & Hs & Hd & Hc). apply T; [exact Sp|]. apply Sec in Hi as [-> Hi]. exact (S1 pt sn dn c Sp I Hi Hs Hd Hc).
    + intros pt Sp N6 N7 H Nf. apply T in H; [|exact Sp]. destruct (C1 pt Sp N6 N7 H) as [(sn & dn & c & Hl & Hs & Hd & Hc)|[Y|Y]]; [|congruence|destruct (NA pt Sp H Y)].
      exists None, sn, dn, c. split; [apply Sec; auto|]. split; [exact Logic.I|]. auto.
Qed.
End ConnList.
Print Assumptions C65_lines.
Print Assumptions C65_list.
Print Assumptions C65_map.
