(** * Facts about the list of connections without firewall rules. *)
From Coq Require Import ZArith List Bool Arith Lia String Ascii.
From Verif Require Import IntervalModel IntervalFacts HyperModel HyperFacts HyperTop HyperInst PropHyperCube ConnModel ConnFacts TextModel TextFacts PortProtoModel PeerModel PeerFacts PeerSetFacts
                          PolicyModel PolicyLaws PolicyFacts LayerFacts ConnAlg StdDims QueryModel QueryFacts QueryAlg GraphModel GraphFacts ConnTextModel ConnTextFacts FWModel FWFacts FWAlg FWTextFacts ConnListModel.
Import ListNotations.
Local Open Scope string_scope.
Local Open Scope list_scope.
Local Open Scope nat_scope.

(** ** A reader of lines: the two names and the text of the connections *)
Definition read_line (l : string) : option (string * string * string) :=
  match split " " l with
  | s :: a :: d :: b :: x :: r => if String.eqb a "=>" && String.eqb b ":" then Some (s, d, join " " (x :: r)) else None
  | _ => None
  end.
(** The text has a line with these names and connections. *)
Definition lists (t s d c : string) : Prop := exists l, In l (split newline t) /\ read_line l = Some (s, d, c).
Definition plain_name (s : string) : Prop := has_char " " s = false /\ has_char newline s = false.

Lemma read_line_ok : forall s d c, has_char " " s = false -> has_char " " d = false -> read_line (s ++ " => " ++ d ++ " : " ++ c)%string = Some (s, d, c).
Proof.
  intros s d c Hs Hd. unfold read_line.
  change (s ++ " => " ++ d ++ " : " ++ c)%string with (s ++ String " " ("=>" ++ String " " (d ++ String " " (":" ++ String " " c))))%string.
  rewrite split_app_char by exact Hs. rewrite split_app_char by reflexivity. rewrite split_app_char by exact Hd. rewrite split_app_char by reflexivity.
  pose proof (join_split " " c) as J. destruct (split " " c) as [|x r] eqn:E; [destruct (split_ne _ _ E)|]. exact (f_equal (fun z => Some (s, d, z)) J).
Qed.
Lemma line_no_newline : forall s d c, has_char newline s = false -> has_char newline d = false -> has_char newline c = false -> has_char newline (s ++ " => " ++ d ++ " : " ++ c)%string = false.
Proof. intros s d c H1 H2 H3. rewrite !has_char_app, H1, H2, H3. reflexivity. Qed.
Lemma lists_join : forall ls s d c, Forall (fun l => has_char newline l = false) ls -> (lists (join nl ls) s d c <-> exists l, In l ls /\ read_line l = Some (s, d, c)).
Proof.
  intros ls s d c F. unfold lists. destruct ls as [|l ls].
  - split; [|intros (l & [] & _)]. intros (l & [<-|[]] & E). discriminate E.
  - assert (X : split newline (join nl (l :: ls)) = l :: ls) by (apply split_join; [discriminate|exact F]). rewrite X. tauto.
Qed.

(** ** A reader of maps: the lines after a title are about connections of its kind *)
Fixpoint sections (cur : option bool) (ls : list string) : list (option bool * (string * string * string)) :=
  match ls with
  | [] => []
  | l :: ls' => if String.eqb l "TCP Connections:" then sections (Some true) ls' else if String.eqb l "non-TCP Connections:" then sections (Some false) ls'
                else match read_line l with Some x => (cur, x) :: sections cur ls' | None => sections cur ls' end
  end.
Lemma split_app_sep : forall c a b, split c (a ++ String c b)%string = split c a ++ split c b.
Proof.
  intros c a. induction a as [|x a IH]; intros b.
  - cbn [append split]. rewrite Ascii.eqb_refl. reflexivity.
  - cbn [append split]. destruct (Ascii.eqb x c); [rewrite IH; reflexivity|]. rewrite IH. pose proof (split_ne c a) as NE. destruct (split c a) as [|y r]; [congruence|reflexivity].
Qed.
Lemma sections_app : forall ls cur ls', (forall l, In l ls -> l <> "TCP Connections:" /\ l <> "non-TCP Connections:") -> sections cur (ls ++ ls') = sections cur ls ++ sections cur ls'.
Proof.
  induction ls as [|l ls IH]; intros cur ls' H; [reflexivity|]. cbn [sections app]. destruct (H l (or_introl eq_refl)) as [H1 H2].
  rewrite (proj2 (String.eqb_neq _ _) H1), (proj2 (String.eqb_neq _ _) H2). rewrite IH by (intros x Hx; apply H; right; exact Hx). destruct (read_line l); reflexivity.
Qed.
Lemma sections_In : forall ls cur x, (forall l, In l ls -> l <> "TCP Connections:" /\ l <> "non-TCP Connections:") -> forall r, (In (r, x) (sections cur ls) <-> r = cur /\ exists l, In l ls /\ read_line l = Some x).
Proof.
  induction ls as [|l ls IH]; intros cur x H r.
  - split; [intros []|intros (_ & l & [] & _)].
  - cbn [sections]. destruct (H l (or_introl eq_refl)) as [H1 H2]. rewrite (proj2 (String.eqb_neq _ _) H1), (proj2 (String.eqb_neq _ _) H2).
    assert (Hx : forall y, In y ls -> y <> "TCP Connections:" /\ y <> "non-TCP Connections:") by (intros y Hy; apply H; right; exact Hy). specialize (IH cur x Hx r).
    destruct (read_line l) as [z|] eqn:E.
    + split.
      * intros [X|X]; [injection X as <- <-; split; [reflexivity|]; exists l; split; [left; reflexivity|exact E]|]. apply (proj1 IH) in X as (-> & l' & Hl & E'). split; [reflexivity|]. exists l'. split; [right; exact Hl|exact E'].
      * intros (-> & l' & [<-|Hl] & E'); [left; congruence|]. right. apply (proj2 IH). split; [reflexivity|]. exists l'. auto.
    + rewrite IH. split.
      * intros (-> & l' & Hl & E'). split; [reflexivity|]. exists l'. split; [right; exact Hl|exact E'].
      * intros (-> & l' & [<-|Hl] & E'); [congruence|]. split; [reflexivity|]. exists l'. auto.
Qed.
Lemma read_no_header : forall l, read_line l <> None -> l <> "TCP Connections:" /\ l <> "non-TCP Connections:".
Proof. intros l H. split; intros ->; apply H; reflexivity. Qed.
Lemma split_lines : forall ls, Forall (fun l => has_char newline l = false) ls -> (forall l, In l ls -> read_line l <> None) ->
  forall l, In l (split newline (join nl ls)) -> l <> "TCP Connections:" /\ l <> "non-TCP Connections:".
Proof.
  intros ls F H l Hl. destruct ls as [|a ls].
  - destruct Hl as [<-|[]]. split; discriminate.
  - assert (X : split newline (join nl (a :: ls)) = a :: ls) by (apply split_join; [discriminate|exact F]). rewrite X in Hl. apply read_no_header, H, Hl.
Qed.

(** ** The dictionary *)
Section Dict.
Context (dom : dim -> val).
Local Notation O := (val_ops dom).
Definition edges (m : list (hc val * list (peer * peer))) : list (hc val * (peer * peer)) := flat_map (fun e => map (fun pq => (fst e, pq)) (snd e)) m.
Lemma edges_In : forall m x pq, In (x, pq) (edges m) <-> exists l, In (x, l) m /\ In pq l.
Proof.
  intros m x pq. unfold edges. rewrite in_flat_map. split.
  - intros ((y & l) & H & Hp). apply in_map_iff in Hp as (pq' & E & Hp). cbn [fst snd] in *. injection E as <- <-. exists l. auto.
  - intros (l & H & Hp). exists (x, l). split; [exact H|]. apply in_map_iff. exists pq. auto.
Qed.
(** Same key, or found equal. *)
Definition same_key (x y : hc val) : Prop := x = y \/ hc_eqb O y x = true.
Lemma add_edges_sound : forall m x l y pq, In (y, pq) (edges (add_edges dom x l m)) -> In (y, pq) (edges m) \/ (In pq l /\ same_key x y).
Proof.
  induction m as [|[z lz] m IH]; intros x l y pq H; cbn [add_edges] in H.
  - destruct l as [|a l]; [destruct H|]. apply edges_In in H as (l' & [E|[]] & Hp). injection E as <- <-. right. split; [exact Hp|left; reflexivity].
  - destruct (hc_eqb O z x) eqn:Q.
    + apply edges_In in H as (l' & [E|H] & Hp).
      * injection E as <- <-. apply in_app_or in Hp as [Hp|Hp]; [left; apply edges_In; exists lz; split; [left; reflexivity|exact Hp]|right; split; [exact Hp|right; exact Q]].
      * left. apply edges_In. exists l'. split; [right; exact H|exact Hp].
    + apply edges_In in H as (l' & [E|H] & Hp).
      * injection E as <- <-. left. apply edges_In. exists lz. split; [left; reflexivity|exact Hp].
      * destruct (IH x l y pq) as [H'|H']; [apply edges_In; exists l'; auto| |right; exact H'].
        left. apply edges_In in H' as (l2 & H2 & Hp2). apply edges_In. exists l2. split; [right; exact H2|exact Hp2].
Qed.
Lemma add_edges_complete : forall m x l pq, In pq l -> exists y, In (y, pq) (edges (add_edges dom x l m)) /\ same_key x y.
Proof.
  induction m as [|[z lz] m IH]; intros x l pq H; cbn [add_edges].
  - destruct l as [|a l]; [destruct H|]. exists x. split; [|left; reflexivity]. apply edges_In. exists (a :: l). split; [left; reflexivity|exact H].
  - destruct (hc_eqb O z x) eqn:Q.
    + exists z. split; [|right; exact Q]. apply edges_In. exists (lz ++ l). split; [left; reflexivity|]. apply in_or_app. right. exact H.
    + destruct (IH x l pq H) as (y & Hy & K). exists y. split; [|exact K]. apply edges_In in Hy as (l' & Hl & Hp). apply edges_In. exists l'. split; [right; exact Hl|exact Hp].
Qed.
Lemma add_edges_keeps : forall m x l y pq, In (y, pq) (edges m) -> In (y, pq) (edges (add_edges dom x l m)).
Proof.
  induction m as [|[z lz] m IH]; intros x l y pq H; [destruct H|]. cbn [add_edges]. apply edges_In in H as (l' & [E|H] & Hp).
  - injection E as <- <-. destruct (hc_eqb O z x); apply edges_In; [exists (lz ++ l)|exists lz]; (split; [left; reflexivity|]); [apply in_or_app; left|]; exact Hp.
  - destruct (hc_eqb O z x); [apply edges_In; exists l'; split; [right; exact H|exact Hp]|].
    assert (X : In (y, pq) (edges (add_edges dom x l m))) by (apply IH; apply edges_In; exists l'; auto). apply edges_In in X as (l2 & H2 & Hp2). apply edges_In. exists l2. split; [right; exact H2|exact Hp2].
Qed.
Lemma fold_edges : forall es m0,
  let m := fold_left (fun m e => add_edges dom (fst e) (snd e) m) es m0 in
  (forall y pq, In (y, pq) (edges m) -> In (y, pq) (edges m0) \/ exists e, In e es /\ In pq (snd e) /\ same_key (fst e) y) /\
  (forall y pq, In (y, pq) (edges m0) -> In (y, pq) (edges m)) /\
  (forall e pq, In e es -> In pq (snd e) -> exists y, In (y, pq) (edges m) /\ same_key (fst e) y).
Proof.
  induction es as [|e es IH]; intros m0; cbn [fold_left]; cbv zeta.
  - split; [auto|]. split; [auto|intros e pq []].
  - destruct (IH (add_edges dom (fst e) (snd e) m0)) as (I1 & I2 & I3). cbv zeta in *. split; [|split].
    + intros y pq H. destruct (I1 y pq H) as [H'|(e' & He & H')]; [|right; exists e'; split; [right; exact He|exact H']].
      destruct (add_edges_sound _ _ _ _ _ H') as [X|[X1 X2]]; [left; exact X|]. right. exists e. split; [left; reflexivity|auto].
    + intros y pq H. apply I2, add_edges_keeps, H.
    + intros e' pq [<-|He] Hp; [|exact (I3 e' pq He Hp)]. destruct (add_edges_complete m0 (fst e) (snd e) pq Hp) as (y & Hy & K). exists y. split; [apply I2, Hy|exact K].
Qed.
(** Every key is the properties of one of the cubes. *)
Lemma add_edges_keys : forall m x l y l', In (y, l') (add_edges dom x l m) -> y = x \/ exists l2, In (y, l2) m.
Proof.
  induction m as [|[z lz] m IH]; intros x l y l' H; cbn [add_edges] in H.
  - destruct l; [destruct H|]. destruct H as [H|[]]. injection H as <- _. left. reflexivity.
  - destruct (hc_eqb O z x); destruct H as [H|H].
    + injection H as <- _. right. exists lz. left. reflexivity.
    + right. exists l'. right. exact H.
    + injection H as <- _. right. exists lz. left. reflexivity.
    + destruct (IH _ _ _ _ H) as [->|(l2 & H2)]; [left; reflexivity|right; exists l2; right; exact H2].
Qed.
Lemma fold_keys : forall es m0 y l, In (y, l) (fold_left (fun m e => add_edges dom (fst e) (snd e) m) es m0) -> (exists l2, In (y, l2) m0) \/ exists e, In e es /\ y = fst e.
Proof.
  induction es as [|e es IH]; intros m0 y l H; cbn [fold_left] in H; [left; exists l; exact H|].
  destruct (IH _ _ _ H) as [(l2 & H2)|(e' & He & ->)]; [|right; exists e'; split; [right; exact He|reflexivity]].
  destruct (add_edges_keys _ _ _ _ _ H2) as [->|X]; [right; exists e; split; [left; reflexivity|reflexivity]|left; exact X].
Qed.
End Dict.

(** ** The active dimensions of properties without peers *)
Definition inner : list dim := [2; 3; 4; 5; 6; 7; 8; 9].
Lemma inner_sub : subseq inner std_all.
Proof. unfold inner, std_all. repeat constructor. Qed.
Lemma create_act : forall (r : list (dim * val)) d, In d (act_of (create_aux r)) -> In d (map fst r).
Proof. intros [|[e v] [|q r]] d; cbn [create_aux act_of]; auto. Qed.
Lemma reduce_cube_dims : forall dom (cube : list (dim * val)) r, reduce_cube (val_ops dom) cube = Some r -> forall d, In d (map fst r) -> In d (map fst cube).
Proof.
  induction cube as [|[e v] cube IH]; intros r H d Hd; cbn [reduce_cube] in H; [injection H as <-; exact Hd|]. destruct (negb (vbool (val_ops dom) v)); [discriminate|].
  destruct (reduce_cube (val_ops dom) cube) as [r'|]; [|discriminate]. injection H as <-. cbn [map fst]. destruct (negb _); [destruct Hd as [Hd|Hd]; [left; exact Hd|]|]; right; exact (IH r' eq_refl d Hd).
Qed.
Lemma props_act : forall dom (E : doms_ok dom) vempty c, c 0 = dom 0 -> c 1 = dom 1 -> let x := make_props (val_ops dom) vempty std_all c in
  hbool x = true -> forall d, In d (act_of x) -> In d inner.
Proof.
  intros dom DO vempty c E0 E1 x B d. unfold x, make_props in *. destruct (ccube_is_empty _ _ _ _); [discriminate B|].
  assert (Vd : forall e, veqb (val_ops dom) (dom e) (dom e) = true).
  { intros e. apply (L_eqb _ _ _ (val_laws dom DO) e); [apply (L_dom _ _ _ (val_laws dom DO))..|]. tauto. }
  assert (Dm : forall e, In e (map fst (ccube_ordered (val_ops dom) std_all c)) -> In e inner).
  { intros e He. unfold ccube_ordered in He. rewrite map_map in He. cbn [fst] in He. rewrite map_id in He. apply filter_In in He as [H1 H2]. apply negb_true_iff in H2. unfold std_all in H1. unfold inner.
    destruct H1 as [<-|[<-|H1]]; [rewrite E0 in H2; cbn in H2|rewrite E1 in H2; cbn in H2|].
    - pose proof (Vd 0) as X. cbn in X. congruence.
    - pose proof (Vd 1) as X. cbn in X. congruence.
    - exact H1. }
  destruct (ccube_ordered (val_ops dom) std_all c) as [|q qs]; [intros []|]. revert B. unfold add_cube. destruct (forallb _ _); [|discriminate].
  unfold h_or. change (is_all (hempty Conn std_all)) with false. change (hbool (hempty Conn std_all)) with false. rewrite orb_false_r. cbn [negb].
  destruct (is_all (create_from_cube (val_ops dom) std_all (q :: qs))); [intros _ []|].
  destruct (negb (hbool (create_from_cube (val_ops dom) std_all (q :: qs)))) eqn:Bc; [discriminate|]. intros _.
  assert (Ov : forall h : hc val, In d (act_of (override Conn (override Conn h))) -> In d (act_of h)) by (intros [| |k a ls]; cbn; auto).
  intros H. apply Dm. apply Ov in H. unfold create_from_cube in H, Bc. destruct (reduce_cube (val_ops dom) (q :: qs)) as [r|] eqn:Er; [|discriminate Bc].
  destruct r as [|r0 r]; [destruct H|]. apply create_act in H. exact (reduce_cube_dims dom (q :: qs) _ Er d H).
Qed.

(** ** The text *)
Section Main.
Context (dom : dim -> val) (reg vis : list peer) (D : iset).
Context (QK : qalg_ok dom std_rest reg vis D [Ivl 0 255]).
Context (E6 : dom 6 = VN true []) (E7 : dom 7 = VN true []) (Ew : forall e u m, dom e = VN u m -> e = 6 \/ e = 7).
Context (E2 : forall d, 2 <= d -> dom d = std_dom d).
Context (allp : peerset) (word_text : dim -> val -> string) (ws : dim -> string -> Z -> Prop) (name : peer -> string).
Context (RD : readable dom word_text ws inner).
(** The peers of the lines: peers of the container and single ranges of addresses. *)
Definition line_peer (p : peer) : Prop := match p with Named k n => In (Named k n) vis | Block l => exists i, l = [i] /\ ipset [i] end.
Context (NM : forall p, line_peer p -> plain_name (name p)).
Let K := qa_alg _ _ _ _ _ _ QK.
Let DO := ok_doms _ _ _ _ _ _ K.
Let N := ok_nodup _ _ _ _ _ _ K.
Local Notation O := (val_ops dom).
Notation space := (q_space dom).
Notation ok := (q_ok dom std_rest).
Definition of_peer (x : point) (p : peer) : Prop := pt_in x [p].

Lemma in_split : forall s p, pok vis s -> In p (ps_split s) -> line_peer p /\ forall x, of_peer x p -> pt_in x s.
Proof using.
  intros s p [P1 P2] H. destruct (ps_split_ok s P1) as (S1 & S2 & S3). split.
  - destruct p as [k n|l]; [apply P2; apply (S2 (PN k n)); exact H|]. destruct (S3 l H) as (i & ->). exists i. split; [reflexivity|]. exact (S1 _ H).
  - intros x Hx. apply S2. destruct x as [k n|y]; cbn [pt_in of_peer In] in *.
    + destruct Hx as [->|[]]. exact H.
    + destruct Hx as (l & [->|[]] & M). exists l. auto.
Qed.
Lemma split_in : forall s x, pok vis s -> pt_in x s -> exists p, In p (ps_split s) /\ of_peer x p.
Proof using.
  intros s x [P1 P2] H. destruct (ps_split_ok s P1) as (S1 & S2 & S3). apply S2 in H. destruct x as [k n|y].
  - exists (Named k n). split; [exact H|left; reflexivity].
  - destruct H as (l & Hl & M). exists (Block l). split; [exact Hl|]. exists l. split; [left; reflexivity|exact M].
Qed.
(** The properties and pairs of the cubes. *)
Lemma edges_of_cubes : forall restr h, ok h -> exists es, mapM (cube_edges dom reg allp restr h) (iter_cubes O std_all h) = Some es /\
  (forall e, In e es -> ok (fst e) /\ (hbool (fst e) = true -> forall d, In d (act_of (fst e)) -> In d inner) /\
     forall p q, In (p, q) (snd e) -> line_peer p /\ line_peer q /\
       forall pt, space pt -> opt (eq (a_tcp pt)) restr -> of_peer (a_src reg pt) p -> of_peer (a_dst reg pt) q -> a_mem pt (fst e) -> a_mem pt h) /\
  (forall pt, space pt -> f_nice pt -> a_mem pt h -> exists e p q, In e es /\ In (p, q) (snd e) /\ of_peer (a_src reg pt) p /\ of_peer (a_dst reg pt) q /\ a_mem pt (fst e)).
Proof using QK E6 E7 Ew.
  intros restr h Kh. pose proof (proj1 Kh) as Oh. destruct (obj_cubes dom reg vis D QK std_all h N ltac:(discriminate) Oh) as [M V].
  assert (G : forall ks, (forall k, In k ks -> In k (iter_cubes O std_all h)) -> exists es, mapM (cube_edges dom reg allp restr h) ks = Some es /\
    (forall e, In e es -> exists k s d, In k ks /\ peers_of_val reg (cube_at O (act_of h) k d_src) = Some s /\ peers_of_val reg (cube_at O (act_of h) k d_dst) = Some d /\
        pok vis s /\ pok vis d /\
        (forall x, pt_in x s <-> exists z, val_mem z (cube_at O (act_of h) k d_src) /\ point_of_index reg z = x) /\
        (forall x, pt_in x d <-> exists z, val_mem z (cube_at O (act_of h) k d_dst) /\ point_of_index reg z = x) /\
        e = (snd (split_cube dom std_all restr (cube_at O (act_of h) k)), list_prod (ps_split s) (ps_split d))) /\
    (forall k, In k ks -> exists e s d, In e es /\ pok vis s /\ pok vis d /\
        (forall x, pt_in x s <-> exists z, val_mem z (cube_at O (act_of h) k d_src) /\ point_of_index reg z = x) /\
        (forall x, pt_in x d <-> exists z, val_mem z (cube_at O (act_of h) k d_dst) /\ point_of_index reg z = x) /\
        e = (snd (split_cube dom std_all restr (cube_at O (act_of h) k)), list_prod (ps_split s) (ps_split d)))).
  { induction ks as [|k ks IH]; intros Hks; cbn [mapM].
    { exists []. split; [reflexivity|]. split; [intros e []|intros k []]. }
    destruct IH as (es & Ee & F1 & F2); [intros k' H; apply Hks; right; exact H|].
    pose proof (V k (Hks k (or_introl eq_refl))) as Vk.
    destruct (peers_of_valid dom reg vis D QK (cube_at O (act_of h) k d_src)) as (s & Es & Ps & Ms); [left; apply Vk|].
    destruct (peers_of_valid dom reg vis D QK (cube_at O (act_of h) k d_dst)) as (d & Ed & Pd & Md); [right; apply Vk|].
    assert (Ns : or_all allp s = s).
    { destruct s; [|reflexivity]. destruct (Vk d_src) as [_ (z & Hz)]. assert (X : pt_in (point_of_index reg z) []) by (apply Ms; exists z; auto). destruct (point_of_index reg z); [destruct X|destruct X as (l & [] & _)]. }
    assert (Nd : or_all allp d = d).
    { destruct d; [|reflexivity]. destruct (Vk d_dst) as [_ (z & Hz)]. assert (X : pt_in (point_of_index reg z) []) by (apply Md; exists z; auto). destruct (point_of_index reg z); [destruct X|destruct X as (l & [] & _)]. }
    assert (Ek : cube_edges dom reg allp restr h k = Some (snd (split_cube dom std_all restr (cube_at O (act_of h) k)), list_prod (ps_split s) (ps_split d))).
    { unfold cube_edges. cbv zeta. rewrite Es. cbn [bind]. rewrite Ed. cbn [bind]. rewrite Ns, Nd. reflexivity. }
    rewrite Ek. cbn [bind]. rewrite Ee. cbn [bind]. eexists. split; [reflexivity|]. split.
    - intros e [<-|He]; [exists k, s, d; split; [left; reflexivity|]; auto 10|]. destruct (F1 e He) as (k' & s' & d' & Hk & X). exists k', s', d'. split; [right; exact Hk|exact X].
    - intros k' [<-|Hk]; [eexists; exists s, d; split; [left; reflexivity|]; auto 10|]. destruct (F2 k' Hk) as (e & s' & d' & He & X). exists e, s', d'. split; [right; exact He|exact X]. }
  destruct (G _ (fun k H => H)) as (es & Ee & F1 & F2). exists es. split; [exact Ee|]. split.
  - intros e He. destruct (F1 e He) as (k & s & d & Hk & _ & _ & Ps & Pd & Ms & Md & ->). cbn [fst snd]. specialize (V k Hk).
    destruct (split_spec dom reg vis D QK E6 E7 Ew _ V restr) as (S1 & S2 & S3 & S4 & S5). split; [exact S2|]. split.
    + apply (props_act dom DO); reflexivity.
    + intros p q Hpq. apply in_prod_iff in Hpq as [Hp Hq]. destruct (in_split s p Ps Hp) as [Lp Ip]. destruct (in_split d q Pd Hq) as [Lq Iq]. split; [exact Lp|]. split; [exact Lq|].
      intros pt Sp Ht Hs Hd Mp. apply Ip in Hs. apply Iq in Hd. apply Ms in Hs as (zs & Hs & Ezs). apply Md in Hd as (zd & Hd & Ezd).
      destruct (space_D _ _ _ _ _ _ QK pt Sp) as [D1 D2].
      assert (X1 : zs = pt d_src).
      { pose proof (index_point dom reg vis D QK _ D1) as Y. unfold a_src in Ezs. rewrite <- Ezs in Y. rewrite index_point with (1 := QK) in Y; [congruence|].
        destruct (V d_src) as [(V1 & V2 & V3) _]. rewrite (ok_src _ _ _ _ _ _ K) in V3. exact (V3 zs Hs). }
      assert (X2 : zd = pt d_dst).
      { pose proof (index_point dom reg vis D QK _ D2) as Y. unfold a_dst in Ezd. rewrite <- Ezd in Y. rewrite index_point with (1 := QK) in Y; [congruence|].
        destruct (V d_dst) as [(V1 & V2 & V3) _]. rewrite (ok_dst _ _ _ _ _ _ K) in V3. exact (V3 zd Hd). }
      assert (M1 : a_mem pt (fst (split_cube dom std_all restr (cube_at O (act_of h) k)))) by (apply (S3 pt Sp); rewrite <- X1, <- X2; auto).
      apply (w_split_sound _ _ _ _ _ _ _ _ _ _ (fw_laws dom reg vis D QK E6 E7 Ew) restr h
               (fst (split_cube dom std_all restr (cube_at O (act_of h) k))) (snd (split_cube dom std_all restr (cube_at O (act_of h) k))) pt Kh); auto.
      cbn [fw_ops f_split]. apply in_map_iff. exists k. split; [reflexivity|exact Hk].
  - intros pt Sp Nc Mp. apply M in Mp as (k & Hk & Mk); [|exact Sp]. destruct (F2 k Hk) as (e & s & d & He & Ps & Pd & Ms & Md & ->). specialize (V k Hk).
    destruct (split_spec dom reg vis D QK E6 E7 Ew _ V restr) as (S1 & S2 & S3 & S4 & S5). destruct (S5 pt Sp Nc Mk) as [_ M2].
    destruct (split_in s (a_src reg pt) Ps) as (p & Hp & Op); [apply Ms; exists (pt d_src); split; [apply Mk|reflexivity]|].
    destruct (split_in d (a_dst reg pt) Pd) as (q & Hq & Oq); [apply Md; exists (pt d_dst); split; [apply Mk|reflexivity]|].
    eexists; exists p, q. split; [exact He|]. cbn [fst snd]. split; [apply in_prod_iff; auto|]. auto.
Qed.

Lemma same_mem : forall x y, ok x -> ok y -> same_key dom x y -> forall pt, space pt -> (a_mem pt x <-> a_mem pt y).
Proof using QK.
  intros x y [Ox _] [Oy _] [->|E] pt Sp; [tauto|]. symmetry. exact (eqb_objects_sound O val_mem (val_valid dom) (val_laws dom DO) false std_all y x N Oy Ox E pt Sp).
Qed.
(** The dictionary. *)
Lemma dict_ok : forall restr h, ok h -> exists m, props_to_peers dom reg allp restr h = Some m /\
  (forall x p q, In (x, (p, q)) (edges m) -> ok x /\ (hbool x = true -> forall d, In d (act_of x) -> In d inner) /\ line_peer p /\ line_peer q /\
       forall pt, space pt -> opt (eq (a_tcp pt)) restr -> of_peer (a_src reg pt) p -> of_peer (a_dst reg pt) q -> a_mem pt x -> a_mem pt h) /\
  (forall pt, space pt -> f_nice pt -> a_mem pt h -> exists x p q, In (x, (p, q)) (edges m) /\ of_peer (a_src reg pt) p /\ of_peer (a_dst reg pt) q /\ a_mem pt x).
Proof using QK E6 E7 Ew.
  intros restr h Kh. destruct (edges_of_cubes restr h Kh) as (es & Ee & F1 & F2). unfold props_to_peers. rewrite Ee. cbn [bind]. eexists. split; [reflexivity|].
  destruct (fold_edges dom es []) as (G1 & _ & G3). cbv zeta in *. set (m := fold_left (fun m e => add_edges dom (fst e) (snd e) m) es []) in *.
  assert (Ky : forall x pq, In (x, pq) (edges m) -> exists e, In e es /\ x = fst e).
  { intros x pq H. apply edges_In in H as (l & H & _). destruct (fold_keys dom es [] x l H) as [(l2 & [])|X]. exact X. }
  split.
  - intros x p q H. destruct (Ky x _ H) as (e0 & He0 & ->). destruct (F1 e0 He0) as (K0 & A0 & _). split; [exact K0|]. split; [exact A0|].
    destruct (G1 _ _ H) as [[]|(e & He & Hpq & Sk)]. destruct (F1 e He) as (Ke & _ & Fe). destruct (Fe p q Hpq) as (Lp & Lq & Me). split; [exact Lp|]. split; [exact Lq|].
    intros pt Sp Ht Hs Hd Mx. apply (Me pt Sp Ht Hs Hd). apply (same_mem (fst e) (fst e0) Ke K0 Sk pt Sp). exact Mx.
  - intros pt Sp Nc Mp. destruct (F2 pt Sp Nc Mp) as (e & p & q & He & Hpq & Hs & Hd & Me). destruct (G3 e (p, q) He Hpq) as (x & Hx & Sk). exists x, p, q. split; [exact Hx|]. split; [exact Hs|]. split; [exact Hd|].
    destruct (Ky x _ Hx) as (e0 & He0 & ->). apply (same_mem (fst e) (fst e0) (proj1 (F1 e He)) (proj1 (F1 e0 He0)) Sk pt Sp). exact Me.
Qed.
Definition header_lines (header : option string) : list string := match header with Some t => if String.eqb t "" then [] else [t] | None => [] end.
Definition fine_header (header : option string) : Prop := forall t, header = Some t -> has_char newline t = false /\ read_line t = None.
Theorem list_ok : forall restr h header excl, ok h -> fine_header header ->
  exists m t, props_to_peers dom reg allp restr h = Some m /\ list_text dom word_text name header excl m = Some t /\
  (exists ls, t = join nl (header_lines header ++ ls) /\ Forall (fun l => has_char newline l = false) (header_lines header ++ ls) /\ forall l, In l ls -> read_line l <> None) /\
  (forall s d c, lists t s d c -> exists p q, name p = s /\ name q = d /\ p <> q /\ (excl = true -> s <> d) /\ line_peer p /\ line_peer q /\
     forall pt, space pt -> opt (eq (a_tcp pt)) restr -> of_peer (a_src reg pt) p -> of_peer (a_dst reg pt) q -> meaning ws c pt -> a_mem pt h) /\
  (forall pt, space pt -> f_nice pt -> a_mem pt h -> exists p q, line_peer p /\ line_peer q /\ of_peer (a_src reg pt) p /\ of_peer (a_dst reg pt) q /\
     (p = q \/ (excl = true /\ name p = name q) \/ exists c, lists t (name p) (name q) c /\ meaning ws c pt)).
Proof using QK E6 E7 Ew E2 RD NM.
  intros restr h header excl Kh Fh. destruct (dict_ok restr h Kh) as (m & Em & F1 & F2). exists m. unfold list_text. fold (edges m).
  assert (G : forall es, (forall e, In e es -> In e (edges m)) -> exists ls, mapM (edge_line dom word_text name excl) es = Some ls /\
    (forall l, In l (List.concat ls) -> exists x p q t, In (x, (p, q)) es /\ l = (name p ++ " => " ++ name q ++ " : " ++ t)%string /\ p <> q /\ (excl = true -> name p <> name q) /\
        has_char newline t = false /\ forall pt, space pt -> (meaning ws t pt <-> a_mem pt x)) /\
    (forall x p q, In (x, (p, q)) es -> hbool x = true -> p = q \/ (excl = true /\ name p = name q) \/
        exists t, In (name p ++ " => " ++ name q ++ " : " ++ t)%string (List.concat ls) /\ forall pt, space pt -> (meaning ws t pt <-> a_mem pt x))).
  { induction es as [|[x [p q]] es IH]; intros Hes; cbn [mapM].
    { exists []. split; [reflexivity|]. split; [intros l []|intros x p q []]. }
    destruct IH as (ls & El & I1 & I2); [intros e He; apply Hes; right; exact He|]. destruct (F1 x p q (Hes _ (or_introl eq_refl))) as ([Ox Cx] & Ax & Lp & Lq & _).
    cbn [edge_line]. destruct (hbool x) eqn:B; cbn [negb orb].
    2:{ cbn [bind]. rewrite El. cbn [bind]. exists ([] :: ls). split; [reflexivity|]. cbn [List.concat app]. split.
        - intros l Hl. destruct (I1 l Hl) as (x' & p' & q' & t & H & X). exists x', p', q', t. split; [right; exact H|exact X].
        - intros x' p' q' [H|H] B'; [injection H as <- <- <-; congruence|exact (I2 x' p' q' H B')]. }
    destruct (peer_eqb p q) eqn:Q; cbn [orb].
    { apply peer_eqb_eq in Q. cbn [bind]. rewrite El. cbn [bind]. exists ([] :: ls). split; [reflexivity|]. cbn [List.concat app]. split.
        - intros l Hl. destruct (I1 l Hl) as (x' & p' & q' & t & H & X). exists x', p', q', t. split; [right; exact H|exact X].
        - intros x' p' q' [H|H] B'; [injection H as <- <- <-; left; exact Q|exact (I2 x' p' q' H B')]. }
    destruct (excl && String.eqb (name p) (name q)) eqn:X.
    { apply andb_true_iff in X as [X1 X2]. apply String.eqb_eq in X2. cbn [bind]. rewrite El. cbn [bind]. exists ([] :: ls). split; [reflexivity|]. cbn [List.concat app]. split.
        - intros l Hl. destruct (I1 l Hl) as (x' & p' & q' & t & H & X). exists x', p', q', t. split; [right; exact H|exact X].
        - intros x' p' q' [H|H] B'; [injection H as <- <- <-; right; left; auto|exact (I2 x' p' q' H B')]. }
    destruct (conn_text_ok dom DO E2 word_text ws inner inner_sub RD true x Ox (Ax eq_refl)) as (t & Et & Nt & Mt). rewrite Et. cbn [bind]. rewrite El. cbn [bind].
    eexists. split; [reflexivity|]. cbn [List.concat app]. split.
    - intros l [<-|Hl].
      + exists x, p, q, t. split; [left; reflexivity|]. split; [reflexivity|]. split; [intros E; apply peer_eqb_eq in E; congruence|].
        split; [intros -> E; apply String.eqb_eq in E; rewrite E in X; discriminate X|]. split; [exact Nt|exact Mt].
      + destruct (I1 l Hl) as (x' & p' & q' & t' & H & Y). exists x', p', q', t'. split; [right; exact H|exact Y].
    - intros x' p' q' [H|H] B'.
      + injection H as <- <- <-. right. right. exists t. split; [left; reflexivity|exact Mt].
      + destruct (I2 x' p' q' H B') as [Y|[Y|(t' & Y1 & Y2)]]; [auto|auto|]. right. right. exists t'. split; [right; exact Y1|exact Y2]. }
  destruct (G (edges m) (fun e H => H)) as (ls & El & I1 & I2). rewrite El. cbn [bind]. eexists. split; [exact Em|]. split; [reflexivity|].
  fold (header_lines header). set (hd := header_lines header).
  assert (Hd : forall l, In l hd -> has_char newline l = false /\ read_line l = None).
  { intros l Hl. unfold hd, header_lines in Hl. destruct header as [t|]; [|destruct Hl]. destruct (String.eqb t ""); [destruct Hl|]. destruct Hl as [<-|[]]. exact (Fh t eq_refl). }
  assert (Fa : Forall (fun l => has_char newline l = false) (hd ++ sorted_set (List.concat ls))).
  { apply Forall_forall. intros l Hl. apply in_app_or in Hl as [Hl|Hl]; [apply Hd, Hl|]. apply (proj1 (sorted_set_In _ _)) in Hl. destruct (I1 l Hl) as (x & p & q & t & H & -> & _ & _ & Nt & _).
    destruct (F1 x p q H) as (_ & _ & Lp & Lq & _). apply line_no_newline; [apply NM, Lp|apply NM, Lq|exact Nt]. }
  split.
  { exists (sorted_set (List.concat ls)). split; [reflexivity|]. split; [exact Fa|]. intros l Hl. apply (proj1 (sorted_set_In _ _)) in Hl. destruct (I1 l Hl) as (x & p & q & t & H & -> & _).
    destruct (F1 x p q H) as (_ & _ & Lp & Lq & _). rewrite read_line_ok by (apply NM; assumption). discriminate. }
  split.
  - intros s d c H. apply (proj1 (lists_join _ s d c Fa)) in H as (l & Hl & E). apply in_app_or in Hl as [Hl|Hl]; [rewrite (proj2 (Hd l Hl)) in E; discriminate E|].
    apply (proj1 (sorted_set_In _ _)) in Hl. destruct (I1 l Hl) as (x & p & q & t & H & -> & Npq & Nn & _ & Mt). destruct (F1 x p q H) as (_ & _ & Lp & Lq & Mx).
    rewrite read_line_ok in E by (apply NM; assumption). injection E as <- <- <-. exists p, q. split; [reflexivity|]. split; [reflexivity|]. split; [exact Npq|]. split; [exact Nn|]. split; [exact Lp|]. split; [exact Lq|].
    intros pt Sp Ht Hs Hq Mc. apply (Mx pt Sp Ht Hs Hq). apply (Mt pt Sp). exact Mc.
  - intros pt Sp Nc Mp. destruct (F2 pt Sp Nc Mp) as (x & p & q & H & Hs & Hq & Mx). destruct (F1 x p q H) as ([Ox Cx] & _ & Lp & Lq & _). exists p, q. split; [exact Lp|]. split; [exact Lq|]. split; [exact Hs|]. split; [exact Hq|].
    assert (B : hbool x = true) by (apply (hbool_spec O val_mem (val_valid dom) (val_laws dom DO) false std_all x N Ox); exists pt; auto).
    destruct (I2 x p q H B) as [Y|[Y|(t & Y1 & Y2)]]; [auto|auto|]. right. right. exists t. split; [|apply (Y2 pt Sp); exact Mx].
    apply (proj2 (lists_join _ _ _ _ Fa)). eexists. split; [apply in_or_app; right; apply (proj2 (sorted_set_In _ _)); exact Y1|]. apply read_line_ok; apply NM; assumption.
Qed.
End Main.
