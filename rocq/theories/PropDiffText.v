(** * C81: texts of differences of connections show a true difference. *)
From Coq Require Import ZArith List Bool Arith String Ascii Lia.
From Verif Require Import IntervalModel HyperModel HyperFacts HyperTop HyperInst TextModel PortProtoModel ConnTextModel ConnTextFacts PropHyperCube ConnAlg StdDims DiffTextModel.
Import ListNotations.
Local Open Scope string_scope.
Local Open Scope list_scope.
Local Open Scope nat_scope.

Section Main.
Context (dom : dim -> val) (DO : doms_ok dom) (word_rep : dim -> Z -> string) (all : list dim) (N : NoDup all) (NE : all <> []).
Notation O := (val_ops dom).
Notation space := (in_space O val_mem).
(** ** Specification *)
(** [t] is the text of the values [xs] of the dimensions [ds]. *)
Definition item_text (ds : list dim) (xs : list Z) (t : string) : Prop :=
  exists ts, Forall2 (fun dx s => exists v, item_value word_rep (fst dx) (snd dx) = Some v /\ s = (dim_name (fst dx) ++ "=" ++ v)%string) (combine ds xs) ts /\ t = ("[" ++ join "," ts ++ "]")%string.
(** Values of some dimensions such that every point with them is in one set and not in the other, and there is such a point. *)
Definition witness (a b : hexp val) (ds : list dim) (xs : list Z) : Prop :=
  (forall d, In d ds -> In d all) /\ List.length xs = List.length ds /\
  (forall pt, space pt -> map pt ds = xs -> points val_mem a pt /\ ~ points val_mem b pt) /\ exists pt, space pt /\ map pt ds = xs.
(** Subtraction is exact: not from a set emptied by operations (finding F1); the empty set the queries use is fresh. *)
Definition subtractable (a b : hexp val) : Prop :=
  nonempty O val_mem (points val_mem a) \/ trivial O val_mem (points val_mem b) \/ act_of (run O all a) = all.
Definition one_more (a b : hexp val) (n1 n2 t : string) : Prop :=
  (t = (n1 ++ " allows all connections while " ++ n2 ++ " does not.")%string /\ (forall pt, space pt -> points val_mem a pt) /\ exists pt, space pt /\ ~ points val_mem b pt) \/
  exists ds xs i, item_text ds xs i /\ t = (n1 ++ " allows communication on " ++ i ++ " while " ++ n2 ++ " does not")%string /\ witness a b ds xs.
(** ** Proofs *)
Let L := val_laws dom DO.
Lemma sub_ok : forall a b, good (val_valid dom) all a -> good (val_valid dom) all b -> safe O val_mem a -> safe O val_mem b -> subtractable a b ->
  obj O val_mem (val_valid dom) false all (h_sub O all (run O all a) (run O all b)) /\
  forall pt, space pt -> (denot val_mem (h_sub O all (run O all a) (run O all b)) pt <-> points val_mem a pt /\ ~ points val_mem b pt).
Proof.
  intros a b Ga Gb Sa Sb [H|[H|H]].
  - destruct (run_spec O val_mem (val_valid dom) L all N NE false (HSub a b)) as [A B]; [cbn; auto|cbn; auto|discriminate|]. split; auto.
  - destruct (run_spec O val_mem (val_valid dom) L all N NE false (HSub a b)) as [A B]; [cbn; auto|cbn; auto|discriminate|]. split; auto.
  - destruct (run_spec O val_mem (val_valid dom) L all N NE false a Ga Sa) as [A1 A2]; [discriminate|]. destruct (run_spec O val_mem (val_valid dom) L all N NE false b Gb Sb) as [B1 B2]; [discriminate|].
    destruct (h_sub_spec O val_mem (val_valid dom) L false all _ _ N NE A1 B1) as [C [D E]].
    + unfold sub_safe. rewrite H. destruct (by_order all (all ++ act_of (run O all b))) as [|d t] eqn:Eb; [apply orb_true_r|].
      rewrite (proj2 (mem_dim_In d all)); [apply orb_true_r|]. assert (X : In d (by_order all (all ++ act_of (run O all b)))) by (rewrite Eb; simpl; auto). apply by_order_in in X. tauto.
    + split; auto. intros pt Hp. rewrite E by auto. rewrite A2, B2 by auto. tauto.
Qed.
Lemma act_sub : forall h, obj O val_mem (val_valid dom) false all h -> subseq (act_of h) all.
Proof.
  intros h Oh. destruct (obj_cases O val_mem (val_valid dom) _ _ _ Oh) as [E|[(_ & _ & _ & _ & S)|Pr]]; [rewrite E; apply sub_nil|exact S|]. destruct Pr as [_ [S _]]. exact S.
Qed.
Lemma select_act : forall h xs, obj O val_mem (val_valid dom) false all h -> List.length xs = List.length all ->
  let sel := filter (fun dx : dim * Z => mem_dim (fst dx) (act_of h)) (combine all xs) in map fst sel = act_of h.
Proof.
  intros h xs Oh Lx sel. assert (E : map fst sel = filter (fun d => mem_dim d (act_of h)) all).
  { subst sel. revert xs Lx. clear. generalize (act_of h) as act. intros act. induction all as [|d l IH]; intros [|x xs] Lx; try discriminate; auto. cbn [combine filter fst]. injection Lx as Lx.
    destruct (mem_dim d act); cbn [map fst]; rewrite IH; auto. }
  rewrite E. apply (subseq_same all); auto; [apply subseq_filter|apply act_sub; auto|]. intros d. rewrite filter_In, mem_dim_In. split; [tauto|]. intros H. split; auto. eapply subseq_in; [apply act_sub; eauto|auto].
Qed.
Lemma item_spec : forall h, obj O val_mem (val_valid dom) false all h -> hbool h = true ->
  exists xs, item_of dom all (act_of h) h = Some xs /\ List.length xs = List.length (act_of h) /\
    (forall pt, space pt -> map pt (act_of h) = xs -> denot val_mem h pt) /\ exists pt, space pt /\ map pt (act_of h) = xs.
Proof.
  intros h Oh Hb. pose proof (first_item_spec O val_mem (val_valid dom) L false all h N Oh) as F. unfold item_of. destruct (first_item O all h) as [ys|]; [|congruence]. destruct F as [F1 F2].
  cbn [bind]. pose proof (select_act h ys Oh F1) as Es. cbv zeta in Es. set (sel := filter _ _) in *. exists (map snd sel). split; [reflexivity|].
  split; [rewrite <- Es, !map_length; reflexivity|].
  destruct (indom_ex O val_mem (val_valid dom) L) as [q Hq].
  assert (Y : forall base : dim -> Z, exists pt, map pt all = ys /\ forall d, ~ In d all -> pt d = base d).
  { intros base. clear -N F1. revert ys F1. induction all as [|d t IH]; intros [|x xs] F1; try discriminate; [exists base; auto|]. inversion N; subst. injection F1 as F1. destruct (IH H2 xs F1) as [p [E H]].
    exists (upd p d x). split; [simpl; rewrite upd_same; f_equal; rewrite <- E; apply map_ext_in; intros e He; apply upd_other; intro; subst; contradiction|].
    intros e He. simpl in He. rewrite upd_other; auto. }
  assert (Sel : forall pt, map pt all = ys -> map pt (act_of h) = map snd sel).
  { intros pt E. rewrite <- Es. subst sel. rewrite map_map. apply map_ext_in. intros [d x] Hd. apply filter_In in Hd as [Hd _]. cbn [fst snd]. rewrite <- E in Hd.
    clear -Hd. induction all as [|e l IH]; [destruct Hd|]. cbn in Hd. destruct Hd as [Hd|Hd]; [congruence|auto]. }
  split.
  - intros pt Hp E. destruct (Y pt) as (p & Ep & _). destruct (F2 p Ep) as [_ D]. unfold denot in *. apply (tmem_ext val_mem (act_of h) p pt h); auto.
    intros d Hd. pose proof (Sel p Ep) as S. rewrite <- E in S. apply (map_in _ _ _ S); auto.
  - destruct (Y q) as (p & Ep & Eo). exists p. split; [|apply Sel; auto]. intros d. destruct (in_dec Nat.eq_dec d all) as [H|H]; [apply (F2 p Ep); auto|rewrite (Eo d H); apply Hq].
Qed.
Lemma str_spec : forall h, obj O val_mem (val_valid dom) false all h -> hbool h = true ->
  (forall t, first_item_str dom word_rep all h = Some t -> exists xs, item_text (act_of h) xs t /\ List.length xs = List.length (act_of h) /\ (forall d, In d (act_of h) -> In d all) /\
     (forall pt, space pt -> map pt (act_of h) = xs -> denot val_mem h pt) /\ exists pt, space pt /\ map pt (act_of h) = xs) /\
  ((forall d x, In d all -> val_mem x (dom d) -> item_value word_rep d x <> None) -> first_item_str dom word_rep all h <> None).
Proof.
  intros h Oh Hb. destruct (item_spec h Oh Hb) as (xs & E & Lx & D & X). assert (AI : forall d, In d (act_of h) -> In d all) by (intros d; apply subseq_in, act_sub; auto).
  unfold first_item_str. rewrite E. cbn [bind]. split.
  - intros t Q. set (f := fun dx : dim * Z => _) in Q. assert (G : forall l ts, mapM f l = Some ts -> Forall2 (fun dx s => exists v, item_value word_rep (fst dx) (snd dx) = Some v /\ s = (dim_name (fst dx) ++ "=" ++ v)%string) l ts).
    { induction l as [|e l IH]; intros ts H; cbn [mapM] in H; [injection H as <-; constructor|]. destruct (f e) as [s|] eqn:Ef; [|discriminate]. destruct (mapM f l) as [r|]; [|discriminate]. cbn in H. injection H as <-. constructor; auto.
      subst f. cbv beta in Ef. destruct (item_value word_rep (fst e) (snd e)) as [v|]; [|discriminate]. cbn [bind] in Ef. injection Ef as <-. exists v. auto. }
    destruct (mapM f (combine (act_of h) xs)) as [ts|] eqn:M; [|discriminate]. cbn [bind] in Q. assert (Q' : t = ("[" ++ join "," ts ++ "]")%string) by congruence.
    exists xs. split; [exists ts; auto|]. auto.
  - intros V. destruct X as (pt & Hp & Ept). assert (G : forall ds ys, (forall d, In d ds -> In d all) -> map pt ds = ys ->
      mapM (fun dx : dim * Z => bind (item_value word_rep (fst dx) (snd dx)) (fun t => Some (dim_name (fst dx) ++ "=" ++ t)%string)) (combine ds ys) <> None).
    { induction ds as [|d ds IH]; intros ys H <-; cbn [map combine mapM]; [discriminate|]. cbn [fst snd]. assert (W : item_value word_rep d (pt d) <> None) by (apply V; [apply H; left; auto|apply Hp]).
      destruct (item_value word_rep d (pt d)); [|congruence]. cbn [bind]. specialize (IH (map pt ds) (fun e He => H e (or_intror He)) eq_refl). destruct (mapM _ (combine ds (map pt ds))); [discriminate|congruence]. }
    specialize (G (act_of h) xs AI Ept). destruct (mapM _ _); [discriminate|congruence].
Qed.

(** ** C81 *)
Theorem C81_differences : forall a b n1 n2, good (val_valid dom) all a -> good (val_valid dom) all b -> safe O val_mem a -> safe O val_mem b -> subtractable a b -> subtractable b a ->
  forall t, print_diff dom word_rep all (run O all a) (run O all b) n1 n2 = Some t ->
    (one_more a b n1 n2 t \/ one_more b a n2 n1 t) \/ (t = "No diff." /\ forall pt, space pt -> (points val_mem a pt <-> points val_mem b pt)).
Proof.
  intros a b n1 n2 Ga Gb Sa Sb Hab Hba t E.
  destruct (run_spec O val_mem (val_valid dom) L all N NE false a Ga Sa) as [A1 A2]; [discriminate|]. destruct (run_spec O val_mem (val_valid dom) L all N NE false b Gb Sb) as [B1 B2]; [discriminate|].
  assert (Al : forall e, good (val_valid dom) all e -> safe O val_mem e -> obj O val_mem (val_valid dom) false all (run O all e) -> (forall p, space p -> (denot val_mem (run O all e) p <-> points val_mem e p)) ->
             (is_all (run O all e) = true -> forall pt, space pt -> points val_mem e pt) /\ (is_all (run O all e) = false -> exists pt, space pt /\ ~ points val_mem e pt)).
  { intros e Ge Se O1 O2. pose proof (is_all_spec O val_mem (val_valid dom) L false all _ N O1) as J. split; intros H.
    - intros pt Hp. apply O2; auto. apply J; auto.
    - destruct (indom_ex O val_mem (val_valid dom) L) as [q Hq].
      destruct (sub_ok (HAll Plain) e) as [S1 S2]; auto; [exact I|exact I|left; exists q; split; [exact Hq|exact I]|].
      destruct (hbool (h_sub O all (run O all (HAll Plain)) (run O all e))) eqn:Hb.
      + apply (hbool_spec O val_mem (val_valid dom) L false all _ N S1) in Hb as (p & Hp & D). exists p. split; auto. apply S2; auto.
      + exfalso. assert (is_all (run O all e) = true); [|congruence]. apply J. intros p Hp.
        pose proof (contains_spec O val_mem (val_valid dom) L false all (run O all e) p) as C. destruct (contains O p (run O all e)) eqn:Ec; [apply C; auto|]. exfalso.
        assert (hbool (h_sub O all (run O all (HAll Plain)) (run O all e)) = true); [|congruence].
        apply (hbool_spec O val_mem (val_valid dom) L false all _ N S1). exists p. split; auto. apply S2; auto. split; [exact I|]. intros X. apply O2 in X; auto. apply C in X; auto. discriminate. }
  pose proof (Al a Ga Sa A1 A2) as [Pa Qa]. pose proof (Al b Gb Sb B1 B2) as [Pb Qb]. clear Al.
  assert (W : forall c d m1 m2 i, (obj O val_mem (val_valid dom) false all (h_sub O all (run O all c) (run O all d)) /\
      forall pt, space pt -> (denot val_mem (h_sub O all (run O all c) (run O all d)) pt <-> points val_mem c pt /\ ~ points val_mem d pt)) ->
      hbool (h_sub O all (run O all c) (run O all d)) = true -> first_item_str dom word_rep all (h_sub O all (run O all c) (run O all d)) = Some i ->
      one_more c d m1 m2 (m1 ++ " allows communication on " ++ i ++ " while " ++ m2 ++ " does not")%string).
  { intros c d m1 m2 i [S1 S2] Hb Ei. destruct (str_spec _ S1 Hb) as [K _]. destruct (K i Ei) as (xs & I1 & I2 & I3 & I4 & I5). right. exists (act_of (h_sub O all (run O all c) (run O all d))), xs, i.
    split; [exact I1|]. split; [reflexivity|]. split; [exact I3|]. split; [exact I2|]. split; [|exact I5]. intros pt Hp Ep. apply S2; auto. }
  pose proof (sub_ok a b Ga Gb Sa Sb Hab) as Sab. pose proof (sub_ok b a Gb Ga Sb Sa Hba) as Sba.
  unfold print_diff in E. destruct (is_all (run O all a) && negb (is_all (run O all b))) eqn:E1.
  { apply andb_true_iff in E1 as [X Y]. apply negb_true_iff in Y. left. left. left. split; [congruence|]. split; auto. }
  destruct (negb (is_all (run O all a)) && is_all (run O all b)) eqn:E2.
  { apply andb_true_iff in E2 as [X Y]. apply negb_true_iff in X. left. right. left. split; [congruence|]. split; auto. }
  cbv zeta in E. destruct (hbool (h_sub O all (run O all a) (run O all b))) eqn:H1.
  { destruct (first_item_str _ _ _ _) as [i|] eqn:Ei; [|discriminate]. cbn [bind] in E. assert (E' : t = (n1 ++ " allows communication on " ++ i ++ " while " ++ n2 ++ " does not")%string) by congruence. subst t. left. left. apply W; auto. }
  destruct (hbool (h_sub O all (run O all b) (run O all a))) eqn:H2.
  { destruct (first_item_str _ _ _ _) as [i|] eqn:Ei; [|discriminate]. cbn [bind] in E. assert (E' : t = (n2 ++ " allows communication on " ++ i ++ " while " ++ n1 ++ " does not")%string) by congruence. subst t. left. right. apply W; auto. }
  right. split; [congruence|]. destruct Sab as [S1 S2]. destruct Sba as [T1 T2].
  assert (Dec : forall e p, obj O val_mem (val_valid dom) false all (run O all e) -> (forall p, space p -> (denot val_mem (run O all e) p <-> points val_mem e p)) -> space p -> points val_mem e p \/ ~ points val_mem e p).
  { intros e p O1 O2 Hp. pose proof (contains_spec O val_mem (val_valid dom) L false all (run O all e) p) as C. destruct (contains O p (run O all e)) eqn:Ec; [left; apply O2; auto; apply C; auto|].
    right. intros X. apply O2 in X; auto. apply C in X; auto. discriminate. }
  intros pt Hp. split; intros X.
  - destruct (Dec b pt B1 B2 Hp) as [Y|Y]; auto. exfalso. assert (hbool (h_sub O all (run O all a) (run O all b)) = true); [|congruence]. apply (hbool_spec O val_mem (val_valid dom) L false all _ N S1). exists pt. split; auto. apply S2; auto.
  - destruct (Dec a pt A1 A2 Hp) as [Y|Y]; auto. exfalso. assert (hbool (h_sub O all (run O all b) (run O all a)) = true); [|congruence]. apply (hbool_spec O val_mem (val_valid dom) L false all _ N T1). exists pt. split; auto. apply T2; auto.
Qed.

(** A text is always made, when all the values of the dimensions have texts. *)
Theorem C81_always_a_text : forall a b n1 n2, good (val_valid dom) all a -> good (val_valid dom) all b -> safe O val_mem a -> safe O val_mem b -> subtractable a b -> subtractable b a ->
  (forall d x, In d all -> val_mem x (dom d) -> item_value word_rep d x <> None) ->
  print_diff dom word_rep all (run O all a) (run O all b) n1 n2 <> None.
Proof.
  intros a b n1 n2 Ga Gb Sa Sb Hab Hba V. destruct (sub_ok a b Ga Gb Sa Sb Hab) as [S1 _]. destruct (sub_ok b a Gb Ga Sb Sa Hba) as [T1 _]. unfold print_diff.
  destruct (_ && _); [discriminate|]. destruct (_ && _); [discriminate|]. cbv zeta.
  destruct (hbool (h_sub O all (run O all a) (run O all b))) eqn:H1.
  { pose proof (proj2 (str_spec _ S1 H1) V) as K. destruct (first_item_str _ _ _ _); [discriminate|congruence]. }
  destruct (hbool (h_sub O all (run O all b) (run O all a))) eqn:H2; [|discriminate].
  pose proof (proj2 (str_spec _ T1 H2) V) as K. destruct (first_item_str _ _ _ _); [discriminate|congruence].
Qed.
End Main.

(** The domains of the code, DimensionsManager.py:36-76: all values have texts. *)
Lemma std_texts : forall word_rep d x, In d std_all -> val_mem x (std_dom d) -> item_value word_rep d x <> None.
Proof.
  intros word_rep d x H. assert (D : d = 2 \/ d = 5 \/ (d <> 2 /\ d <> 5)) by lia. destruct D as [->|[->|[D2 D5]]].
  - intros [i [[<-|[]] Hi]]. cbn [lo hi] in Hi. unfold item_value, get_protocol_name, is_valid_protocol. replace (negb ((x >=? 0)%Z && (x <=? 255)%Z)) with false by lia. destruct (assoc_z x number_to_name); discriminate.
  - intros [i [[<-|[]] Hi]]. cbn [lo hi] in Hi. unfold item_value. assert (X : (x = 0 \/ x = 1 \/ x = 2 \/ x = 3 \/ x = 4 \/ x = 5 \/ x = 6 \/ x = 7 \/ x = 8)%Z) by lia.
    repeat (destruct X as [->|X]; [vm_compute; discriminate|]). subst x. vm_compute. discriminate.
  - intros _. do 8 (destruct d as [|d]; [cbn [item_value]; congruence|]). cbn [item_value]. discriminate.
Qed.
(** The texts of protocols and methods say which one it is: the parser of policies (get_protocol_number) and the list of methods read them back. *)
Theorem C81_value_texts : forall word_rep d x t, val_mem x (std_dom d) -> item_value word_rep d x = Some t ->
  (d = 2 -> get_protocol_number (ProtoName t) = Some x) /\ (d = 5 -> index_of t all_methods = Some x).
Proof.
  intros word_rep d x t H E. split; intros ->; destruct H as [i [[<-|[]] Hi]]; cbn [lo hi] in Hi; unfold item_value in E.
  - assert (G : forallb (fun n => match get_protocol_name (Z.of_nat n) with Some s => match get_protocol_number (ProtoName s) with Some z => (z =? Z.of_nat n)%Z | None => false end | None => false end) (seq 0 256) = true) by (vm_compute; reflexivity).
    rewrite forallb_forall in G. specialize (G (Z.to_nat x)). rewrite Z2Nat.id in G by lia. rewrite E in G. assert (X : In (Z.to_nat x) (seq 0 256)) by (apply in_seq; lia). specialize (G X).
    destruct (get_protocol_number (ProtoName t)) as [z|]; [|discriminate]. apply Z.eqb_eq in G. congruence.
  - assert (X : (x = 0 \/ x = 1 \/ x = 2 \/ x = 3 \/ x = 4 \/ x = 5 \/ x = 6 \/ x = 7 \/ x = 8)%Z) by lia.
    repeat (destruct X as [->|X]; [vm_compute in E; injection E as <-; vm_compute; reflexivity|]). subst x. vm_compute in E. injection E as <-. vm_compute. reflexivity.
Qed.
(** ** A non-trivial case: TCP on ports 80-90 and TCP on port 80. *)
Definition d_rep (d : dim) (x : Z) : string := "*".
Definition d_a : hexp val := HCube [(2, VI [Ivl 6 6]); (4, VI [Ivl 80 90])].
Definition d_b : hexp val := HCube [(2, VI [Ivl 6 6]); (4, VI [Ivl 80 80])].
Definition d_diff (a b : hexp val) := print_diff std_dom d_rep std_all (run (val_ops std_dom) std_all a) (run (val_ops std_dom) std_all b) "c1" "c2".
Example ex_C81_ports : d_diff d_a d_b = Some "c1 allows communication on [protocols=TCP,dst_ports=81] while c2 does not".
Proof. vm_compute. reflexivity. Qed.
Example ex_C81_swapped : d_diff d_b d_a = Some "c2 allows communication on [protocols=TCP,dst_ports=81] while c1 does not".
Proof. vm_compute. reflexivity. Qed.
Example ex_C81_same : d_diff d_a (HOr d_b d_a) = Some "No diff.".
Proof. vm_compute. reflexivity. Qed.
Example ex_C81_all : d_diff d_a (HAll Conn) = Some "c2 allows all connections while c1 does not.".
Proof. vm_compute. reflexivity. Qed.
(** Against the fresh empty set of _append_different_conns_to_list, NetworkConfigQuery.py:986-1009. *)
Example ex_C81_none : d_diff d_a (HEmpty Conn) = Some "c1 allows communication on [protocols=TCP,dst_ports=80] while c2 does not".
Proof. vm_compute. reflexivity. Qed.
(** The hypotheses hold in these cases. *)
Lemma std_doms : doms_ok std_dom.
Proof. exact (ok_doms _ _ _ _ _ _ (std_alg ex_reg ex_reg_ok)). Qed.
Lemma d_good : good (val_valid std_dom) std_all d_a /\ good (val_valid std_dom) std_all d_b.
Proof.
  assert (S : subseq [2; 4] std_all) by (unfold std_all; apply sub_skip, sub_skip, sub_keep, sub_skip, sub_keep, sub_nil).
  split; (split; [discriminate|split; [exact S|]]); intros d v [H|[H|[]]]; injection H as <- <-;
    (split; [cbn; lia|split; [exact I|]]); intros x [i [[<-|[]] Hi]]; cbn [lo hi] in Hi; (eexists; split; [left; reflexivity|cbn [lo hi]; lia]).
Qed.
Lemma d_all : NoDup std_all /\ std_all <> [].
Proof. split; [|discriminate]. unfold std_all. repeat (constructor; [cbn; intuition discriminate|]). constructor. Qed.
Definition d_pt (d : dim) : Z := match d with 2 => 6%Z | 4 => 80%Z | 0 | 1 | 3 | 5 | 8 | 9 => 1%Z | _ => 0%Z end.
Lemma d_point : in_space (val_ops std_dom) val_mem d_pt.
Proof.
  intros d. do 10 (destruct d as [|d]; [first [exists (Ivl 0 255); split; [left; reflexivity|cbn; lia] | exists (Ivl 1 65535); split; [left; reflexivity|cbn; lia]
    | exists (Ivl 0 8); split; [left; reflexivity|cbn; lia] | exists (Ivl 0 254); split; [left; reflexivity|cbn; lia] | eexists; split; [left; reflexivity|vm_compute; split; discriminate] | intros [i [[] _]]]|]).
  exists (Ivl 0 100000); split; [left; reflexivity|cbn; lia].
Qed.
Example ex_C81_hypotheses : subtractable std_dom std_all d_a d_b /\ subtractable std_dom std_all d_b d_a /\ subtractable std_dom std_all d_a (HEmpty Conn) /\ subtractable std_dom std_all (HEmpty Conn) d_a.
Proof.
  assert (A : nonempty (val_ops std_dom) val_mem (points val_mem d_a)).
  { exists d_pt. split; [exact d_point|]. intros d v [H|[H|[]]]; injection H as <- <-; (eexists; split; [left; reflexivity|cbn; lia]). }
  assert (B : nonempty (val_ops std_dom) val_mem (points val_mem d_b)).
  { exists d_pt. split; [exact d_point|]. intros d v [H|[H|[]]]; injection H as <- <-; (eexists; split; [left; reflexivity|cbn; lia]). }
  split; [left; exact A|]. split; [left; exact B|]. split; [left; exact A|]. right. right. vm_compute. reflexivity.
Qed.
(** The theorems apply: a text is made for every pair of these sets, whatever the names. *)
Example ex_C81_applies : forall n1 n2, exists t, print_diff std_dom d_rep std_all (run (val_ops std_dom) std_all d_a) (run (val_ops std_dom) std_all (HEmpty Conn)) n1 n2 = Some t /\ one_more std_dom d_rep std_all d_a (HEmpty Conn) n1 n2 t.
Proof.
  intros n1 n2. destruct ex_C81_hypotheses as (_ & _ & H1 & H2). destruct d_good as [Ga _]. destruct d_all as [N NE].
  pose proof (C81_always_a_text std_dom std_doms d_rep std_all N NE d_a (HEmpty Conn) n1 n2 Ga I I I H1 H2 (std_texts d_rep)) as T.
  pose proof (C81_differences std_dom std_doms d_rep std_all N NE d_a (HEmpty Conn) n1 n2 Ga I I I H1 H2) as D.
  destruct (print_diff _ _ _ _ _ _ _) as [t|]; [|congruence]. exists t. split; auto. destruct (D t eq_refl) as [[X|X]|[_ X]]; auto; exfalso.
  - destruct X as [(_ & X & _)|(ds & xs & i & _ & _ & W)]; [exact (X _ d_point)|]. destruct W as (_ & _ & W & pt & Hp & E). exact (proj1 (W pt Hp E)).
  - apply (X _ d_point). intros d v [H|[H|[]]]; injection H as <- <-; (eexists; split; [left; reflexivity|cbn; lia]).
Qed.
Print Assumptions C81_differences.
Print Assumptions C81_always_a_text.
Print Assumptions C81_value_texts.
