(** * C82: the list of differences of two configurations. *)
From Coq Require Import ZArith List Bool Arith Lia String Ascii.
From Verif Require Import IntervalModel IntervalFacts HyperModel HyperFacts HyperTop HyperInst PropHyperCube ConnModel ConnFacts TextModel TextFacts PortProtoModel PeerModel PeerFacts PeerSetFacts
                          PolicyModel PolicyLaws PolicyFacts LayerFacts ConnAlg StdDims QueryModel QueryFacts QueryAlg GraphModel GraphFacts ConnTextModel ConnTextFacts FWModel FWFacts FWAlg FWTextFacts ConnListModel ConnListFacts
                          DiffTextModel PropDiffText DiffListModel.
Import ListNotations.
Local Open Scope string_scope.
Local Open Scope list_scope.
Local Open Scope nat_scope.

Section Main.
Context (dom : dim -> val) (reg vis : list peer) (D : iset).
Context (QK : qalg_ok dom std_rest reg vis D [Ivl 0 255]).
Context (E6 : dom 6 = VN true []) (E7 : dom 7 = VN true []) (Ew : forall e u m, dom e = VN u m -> e = 6 \/ e = 7).
Context (allp : peerset) (word_rep : dim -> Z -> string).
Let K := qa_alg _ _ _ _ _ _ QK.
Let DO := ok_doms _ _ _ _ _ _ K.
Let N := ok_nodup _ _ _ _ _ _ K.
Local Notation O := (val_ops dom).
Notation space := (q_space dom).
Notation ok := (q_ok dom std_rest).
(** ** Specification: a connection is one of an entry if its ends are in the sets of peers and its properties in the connections. *)
Definition in_entry (e : hc val * peerset * peerset) (pt : dim -> Z) : Prop :=
  pt_in (a_src reg pt) (snd (fst e)) /\ pt_in (a_dst reg pt) (snd e) /\ a_mem pt (fst (fst e)).
(** ** Proofs *)
Lemma entry_ok : forall h k, ok h -> In k (iter_cubes O std_all h) -> exists e, diff_entry dom reg allp h k = Some e /\ ok (fst (fst e)) /\ snd (fst e) <> [] /\ snd e <> [] /\
  (forall pt, space pt -> in_entry e pt -> a_mem pt h) /\
  (forall pt, space pt -> f_nice pt -> (forall d, val_mem (pt d) (cube_at O (act_of h) k d)) -> in_entry e pt).
Proof using QK E6 E7 Ew.
  intros h k Kh Hk. pose proof (proj1 Kh) as Oh. destruct (obj_cubes dom reg vis D QK std_all h N ltac:(discriminate) Oh) as [M V].
  pose proof (V k Hk) as Vk.
  destruct (peers_of_valid dom reg vis D QK (cube_at O (act_of h) k d_src)) as (s & Es & Ps & Ms); [left; apply Vk|].
  destruct (peers_of_valid dom reg vis D QK (cube_at O (act_of h) k d_dst)) as (d & Ed & Pd & Md); [right; apply Vk|].
  assert (Ns : s <> []).
  { intros ->. destruct (Vk d_src) as [_ (z & Hz)]. assert (X : pt_in (point_of_index reg z) []) by (apply Ms; exists z; auto). destruct (point_of_index reg z); [destruct X|destruct X as (l & [] & _)]. }
  assert (Nd : d <> []).
  { intros ->. destruct (Vk d_dst) as [_ (z & Hz)]. assert (X : pt_in (point_of_index reg z) []) by (apply Md; exists z; auto). destruct (point_of_index reg z); [destruct X|destruct X as (l & [] & _)]. }
  assert (Os : or_all allp s = s) by (destruct s; [congruence|reflexivity]). assert (Od : or_all allp d = d) by (destruct d; [congruence|reflexivity]).
  unfold diff_entry. cbv zeta. rewrite Es. cbn [bind]. rewrite Ed. cbn [bind]. rewrite Os, Od. eexists. split; [reflexivity|]. cbn [fst snd].
  destruct (split_spec dom reg vis D QK E6 E7 Ew _ Vk None) as (S1 & S2 & S3 & S4 & S5). split; [exact S2|]. split; [exact Ns|]. split; [exact Nd|]. split.
  - intros pt Sp (Hs & Hd & Mp). cbn [fst snd] in *. apply Ms in Hs as (zs & Hs & Ezs). apply Md in Hd as (zd & Hd & Ezd).
    destruct (space_D _ _ _ _ _ _ QK pt Sp) as [D1 D2].
    assert (X1 : zs = pt d_src).
    { pose proof (index_point dom reg vis D QK _ D1) as Y. unfold a_src in Ezs. rewrite <- Ezs in Y. rewrite index_point with (1 := QK) in Y; [congruence|].
      destruct (Vk d_src) as [(V1 & V2 & V3) _]. rewrite (ok_src _ _ _ _ _ _ K) in V3. exact (V3 zs Hs). }
    assert (X2 : zd = pt d_dst).
    { pose proof (index_point dom reg vis D QK _ D2) as Y. unfold a_dst in Ezd. rewrite <- Ezd in Y. rewrite index_point with (1 := QK) in Y; [congruence|].
      destruct (Vk d_dst) as [(V1 & V2 & V3) _]. rewrite (ok_dst _ _ _ _ _ _ K) in V3. exact (V3 zd Hd). }
    assert (M1 : a_mem pt (fst (split_cube dom std_all None (cube_at O (act_of h) k)))) by (apply (S3 pt Sp); rewrite <- X1, <- X2; auto).
    apply (w_split_sound _ _ _ _ _ _ _ _ _ _ (fw_laws dom reg vis D QK E6 E7 Ew) None h
             (fst (split_cube dom std_all None (cube_at O (act_of h) k))) (snd (split_cube dom std_all None (cube_at O (act_of h) k))) pt Kh); auto; [|exact I].
    cbn [fw_ops f_split]. apply in_map_iff. exists k. split; [reflexivity|exact Hk].
  - intros pt Sp Nc Mk. destruct (S5 pt Sp Nc Mk) as [_ M2]. split; [|split]; cbn [fst snd]; [apply Ms; exists (pt d_src); split; [apply Mk|reflexivity]|apply Md; exists (pt d_dst); split; [apply Mk|reflexivity]|exact M2].
Qed.
Definition sound_entry (h : hc val) (e : hc val * peerset * peerset) : Prop :=
  ok (fst (fst e)) /\ snd (fst e) <> [] /\ snd e <> [] /\ forall pt, space pt -> in_entry e pt -> a_mem pt h.
Lemma entries_ok : forall h ks, ok h -> (forall k, In k ks -> In k (iter_cubes O std_all h)) -> exists l, mapM (diff_entry dom reg allp h) ks = Some l /\ List.length l = List.length ks /\
  (forall e, In e l -> sound_entry h e) /\
  (forall k, In k ks -> exists e, In e l /\ forall pt, space pt -> f_nice pt -> (forall d, val_mem (pt d) (cube_at O (act_of h) k d)) -> in_entry e pt).
Proof using QK E6 E7 Ew.
  intros h ks Kh. induction ks as [|k ks IH]; intros Hks; cbn [mapM].
  { exists []. split; [reflexivity|]. split; [reflexivity|]. split; [intros e []|intros k []]. }
  destruct IH as (l & El & Ll & F1 & F2); [intros k' H; apply Hks; right; exact H|]. destruct (entry_ok h k Kh (Hks k (or_introl eq_refl))) as (e & Ee & H1 & H2 & H3 & H4 & H5).
  rewrite Ee. cbn [bind]. rewrite El. cbn [bind]. exists (e :: l). split; [reflexivity|]. split; [cbn; congruence|]. split.
  - intros e' [<-|He]; [split; auto|apply F1; exact He].
  - intros k' [<-|Hk]; [exists e; split; [left; reflexivity|exact H5]|]. destruct (F2 k' Hk) as (e' & He & X). exists e'. split; [right; exact He|exact X].
Qed.

(** ** C82 *)
(** With full explanations the list has exactly the connections of the two differences, each on its side. *)
Theorem C82_all_differences : forall h1 h2, ok h1 -> ok h2 -> exists l, diff_list dom reg allp true h1 h2 = Some l /\
  (forall b e, In (b, e) l -> ok (fst (fst e)) /\ snd (fst e) <> [] /\ snd e <> [] /\ forall pt, space pt -> in_entry e pt -> a_mem pt (if b then h1 else h2 : hc val)) /\
  (forall (b : bool) pt, space pt -> f_nice pt -> a_mem pt (if b then h1 else h2 : hc val) -> exists e, In (b, e) l /\ in_entry e pt).
Proof using QK E6 E7 Ew.
  intros h1 h2 K1 K2. unfold diff_list, side_entries.
  destruct (entries_ok h1 (iter_cubes O std_all h1) K1 (fun k (H : In k (iter_cubes O std_all h1)) => H)) as (l1 & E1 & _ & F1 & G1). destruct (entries_ok h2 (iter_cubes O std_all h2) K2 (fun k (H : In k (iter_cubes O std_all h2)) => H)) as (l2 & E2 & _ & F2 & G2).
  rewrite E1. cbn [bind]. rewrite E2. cbn [bind]. eexists. split; [reflexivity|]. split.
  - intros b e H. apply in_app_or in H as [H|H]; apply in_map_iff in H as (e' & Q & H); injection Q as <- <-; [apply F1|apply F2]; exact H.
  - intros [|] pt Sp Nc Mp.
    + destruct (obj_cubes dom reg vis D QK std_all h1 N ltac:(discriminate) (proj1 K1)) as [M _]. apply M in Mp as (k & Hk & Mk); [|exact Sp]. destruct (G1 k Hk) as (e & He & X). exists e.
      split; [apply in_or_app; left; apply in_map; exact He|apply X; auto].
    + destruct (obj_cubes dom reg vis D QK std_all h2 N ltac:(discriminate) (proj1 K2)) as [M _]. apply M in Mp as (k & Hk & Mk); [|exact Sp]. destruct (G2 k Hk) as (e & He & X). exists e.
      split; [apply in_or_app; right; apply in_map; exact He|apply X; auto].
Qed.
(** Otherwise at most one entry for each side, of connections of that difference, and one if there is a difference. *)
Theorem C82_one_difference : forall h1 h2, ok h1 -> ok h2 -> exists l, diff_list dom reg allp false h1 h2 = Some l /\
  (forall b e, In (b, e) l -> ok (fst (fst e)) /\ snd (fst e) <> [] /\ snd e <> [] /\ forall pt, space pt -> in_entry e pt -> a_mem pt (if b then h1 else h2 : hc val)) /\
  (forall b e e', In (b, e) l -> In (b, e') l -> e = e') /\
  (forall (b : bool) pt, space pt -> a_mem pt (if b then h1 else h2 : hc val) -> exists e, In (b, e) l).
Proof using QK E6 E7 Ew.
  intros h1 h2 K1 K2. unfold diff_list, side_entries.
  assert (Fn : forall h k, In k (firstn 1 (iter_cubes O std_all h)) -> In k (iter_cubes O std_all h)) by (intros h k; destruct (iter_cubes O std_all h) as [|a r]; [intros []|intros [<-|[]]; left; reflexivity]).
  destruct (entries_ok h1 _ K1 (Fn h1)) as (l1 & E1 & L1 & F1 & _). destruct (entries_ok h2 _ K2 (Fn h2)) as (l2 & E2 & L2 & F2 & _).
  rewrite E1. cbn [bind]. rewrite E2. cbn [bind]. eexists. split; [reflexivity|].
  assert (Ln : forall h, List.length (firstn 1 (iter_cubes O std_all h)) <= 1) by (intros h; apply firstn_le_length).
  assert (U : forall (l : list (hc val * peerset * peerset)) e e', List.length l <= 1 -> In e l -> In e' l -> e = e').
  { intros [|a [|c r]] e e' H; cbn in H; [intros []|intros [<-|[]] [<-|[]]; reflexivity|lia]. }
  split; [|split].
  - intros b e H. apply in_app_or in H as [H|H]; apply in_map_iff in H as (e' & Q & H); injection Q as <- <-; [apply F1|apply F2]; exact H.
  - intros b e e' H H'. apply in_app_or in H as [H|H]; apply in_map_iff in H as (x & Q & H); apply in_app_or in H' as [H'|H']; apply in_map_iff in H' as (x' & Q' & H');
      try congruence; assert (x = x') by (first [apply (U l1); [rewrite L1; apply Ln|..]; assumption | apply (U l2); [rewrite L2; apply Ln|..]; assumption]); congruence.
  - intros [|] pt Sp Mp.
    + destruct (obj_cubes dom reg vis D QK std_all h1 N ltac:(discriminate) (proj1 K1)) as [M _]. apply M in Mp as (k & Hk & Mk); [|exact Sp].
      destruct (iter_cubes O std_all h1) as [|a r]; [destruct Hk|]. destruct l1 as [|e l1]; [discriminate L1|]. exists e. left. reflexivity.
    + destruct (obj_cubes dom reg vis D QK std_all h2 N ltac:(discriminate) (proj1 K2)) as [M _]. apply M in Mp as (k & Hk & Mk); [|exact Sp].
      destruct (iter_cubes O std_all h2) as [|a r]; [destruct Hk|]. destruct l2 as [|e l2]; [discriminate L2|]. exists e. apply in_or_app. right. left. reflexivity.
Qed.
(** The text of an entry with connections: it names the configuration of the side, and that it allows everything, or an item all of whose connections are in the entry's. *)
Theorem C82_texts : forall n1 n2 (b : bool) x t, ok x -> (exists pt, space pt /\ a_mem pt x) -> entry_diff dom word_rep n1 n2 b x = Some t ->
  let n := if b then n1 else n2 in let m := if b then n2 else n1 in
  (t = (n ++ " allows all connections while " ++ m ++ " does not.")%string /\ forall pt, space pt -> a_mem pt x) \/
  exists ds xs i, item_text word_rep ds xs i /\ t = (n ++ " allows communication on " ++ i ++ " while " ++ m ++ " does not")%string /\
    (forall pt, space pt -> map pt ds = xs -> a_mem pt x) /\ exists pt, space pt /\ map pt ds = xs.
Proof using QK.
  intros n1 n2 b x t [Ox _] Hx E. cbv zeta. pose proof (val_laws dom DO) as L. pose proof (hempty_obj O val_mem (val_valid dom) false std_all Conn) as Oe. specialize (Oe ltac:(discriminate) ltac:(discriminate)).
  assert (Sf : HyperTop.sub_safe std_all x (hempty Conn std_all) = true) by (unfold HyperTop.sub_safe; change (hbool (hempty Conn std_all)) with false; destruct (hbool x); reflexivity).
  assert (Sf2 : HyperTop.sub_safe std_all (hempty Conn std_all) x = true).
  { unfold HyperTop.sub_safe. cbn [hempty act_of]. destruct (by_order std_all (std_all ++ act_of x)) as [|d r] eqn:Eb; [apply orb_true_r|].
    rewrite (proj2 (mem_dim_In d std_all)); [apply orb_true_r|]. assert (X : In d (by_order std_all (std_all ++ act_of x))) by (rewrite Eb; simpl; auto). apply by_order_in in X. tauto. }
  assert (NE : std_all <> []) by discriminate. assert (Em : forall pt, ~ denot val_mem (hempty Conn std_all) pt) by (intros pt; apply empty_denot; discriminate).
  destruct (h_sub_spec O val_mem (val_valid dom) L false std_all _ _ N NE Ox Oe Sf) as (A1 & _ & A2). destruct (h_sub_spec O val_mem (val_valid dom) L false std_all _ _ N NE Oe Ox Sf2) as (B1 & _ & B2). cbv zeta in *.
  assert (Ha : hbool (h_sub O std_all x (hempty Conn std_all)) = true).
  { apply (hbool_spec O val_mem (val_valid dom) L false std_all _ N A1). destruct Hx as (pt & Sp & Mp). exists pt. split; [exact Sp|]. apply A2; [exact Sp|]. split; [exact Mp|apply Em]. }
  assert (Hb : hbool (h_sub O std_all (hempty Conn std_all) x) = false).
  { destruct (hbool (h_sub O std_all (hempty Conn std_all) x)) eqn:H; [|reflexivity]. exfalso. apply (hbool_spec O val_mem (val_valid dom) L false std_all _ N B1) in H as (pt & Sp & Mp). apply B2 in Mp as [Mp _]; [|exact Sp]. exact (Em pt Mp). }
  pose proof (is_all_spec O val_mem (val_valid dom) L false std_all _ N Ox) as Al.
  assert (W : forall n m i, first_item_str dom word_rep std_all (h_sub O std_all x (hempty Conn std_all)) = Some i -> t = (n ++ " allows communication on " ++ i ++ " while " ++ m ++ " does not")%string ->
     exists ds xs i, item_text word_rep ds xs i /\ t = (n ++ " allows communication on " ++ i ++ " while " ++ m ++ " does not")%string /\ (forall pt, space pt -> map pt ds = xs -> a_mem pt x) /\ exists pt, space pt /\ map pt ds = xs).
  { intros n m i Ei Et. destruct (str_spec dom DO word_rep std_all N _ A1 Ha) as [Q _]. destruct (Q i Ei) as (xs & I1 & I2 & I3 & I4 & I5). eexists; exists xs, i. split; [exact I1|]. split; [exact Et|]. split; [|exact I5].
    intros pt Sp Ep. exact (proj1 (proj1 (A2 pt Sp) (I4 pt Sp Ep))). }
  unfold entry_diff, entry_conns in E. cbv zeta in E. cbn [fst snd] in E. destruct b; unfold print_diff in E; change (is_all (hempty Conn std_all)) with false in E; cbn [negb andb] in E.
  - rewrite andb_true_r, andb_false_r in E. destruct (is_all x) eqn:Ia; [left; split; [congruence|apply Al; reflexivity]|]. right. rewrite Ha in E.
    destruct (first_item_str dom word_rep std_all (h_sub O std_all x (hempty Conn std_all))) as [i|] eqn:Ei; [|discriminate]. cbn [bind] in E. apply (W _ _ i); [reflexivity|congruence].
  - destruct (is_all x) eqn:Ia; [left; split; [congruence|apply Al; reflexivity]|]. right. rewrite Ha, Hb in E.
    destruct (first_item_str dom word_rep std_all (h_sub O std_all x (hempty Conn std_all))) as [i|] eqn:Ei; [|discriminate]. cbn [bind] in E. apply (W _ _ i); [reflexivity|congruence].
Qed.
End Main.
