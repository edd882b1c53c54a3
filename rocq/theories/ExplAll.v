(** * All explanations: explain_all never fails and has an entry for each pair. *)
From Coq Require Import ZArith List Bool Arith Lia String Ascii.
From Verif Require Import MinDfaModel ConnTextModel IntervalModel TextModel PortProtoModel GraphModel GraphFacts PeerModel PolicyModel QueryModel YamlModel ClusterModel MapModel ExplModel ExplFacts.
Import ListNotations.
Local Open Scope string_scope.
Local Open Scope list_scope.
Local Open Scope nat_scope.

Section All.
Context {C : Type} (A : cops C) (ends : C -> option (list (peerset * peerset))) (fname : peer -> string).
Local Notation tracker := (@tracker C).
Local Notation policy := (@policy C).

(** Peers with lists have an item. *)
Definition tidy (t : tracker) : Prop := forall n, known t n = true -> item_at t n = true.
(** The second tracker knows what the first knows. *)
Record grows (t t' : tracker) : Prop := Grows {
  gr_tidy : tidy t -> tidy t';
  gr_item : forall n, item_at t n = true -> item_at t' n = true;
  gr_known : forall n, known t n = true -> known t' n = true;
  gr_conns : t_conns t' = t_conns t;
  gr_peers : t_peers t' = t_peers t;
  gr_ep : t_ep t' = t_ep t }.
Lemma grows_refl : forall t, grows t t.
Proof using. intros t. constructor; auto. Qed.
Lemma grows_trans : forall t u v, grows t u -> grows u v -> grows t v.
Proof using. intros t u v [H1 H2 H3 H4 H5 H6] [G1 G2 G3 G4 G5 G6]. constructor; auto; congruence. Qed.
Lemma grows_fold : forall {X} (f : tracker -> X -> tracker) l t, (forall t x, grows t (f t x)) -> grows t (fold_left f l t).
Proof using. intros X f. induction l as [|x l IH]; intros t H; cbn [fold_left]; [apply grows_refl|]. apply (grows_trans t (f t x)); auto. Qed.
Lemma grows_foldM : forall {X} (f : tracker -> X -> option tracker) l t t', (forall t x t', f t x = Some t' -> grows t t') -> foldM f l t = Some t' -> grows t t'.
Proof using.
  intros X f. induction l as [|x l IH]; intros t t' H E; [injection E as <-; apply grows_refl|]. rewrite foldM_cons in E. destruct (f t x) as [u|] eqn:Eu; [|discriminate]. apply (grows_trans t u); [eapply H; exact Eu|apply IH; assumption].
Qed.
Lemma grows_item : forall (t : tracker) path ln n w, grows t (add_item t path ln n w).
Proof using.
  intros t path ln n w. unfold add_item. destruct (String.eqb n ""); [apply grows_refl|].
  assert (M : forall m, item_at t m = true -> item_at (set_items t (dput (t_items t) n (Entry (kept_path path) ln w))) m = true).
  { intros m H. unfold item_at in *. cbn [set_items t_items]. rewrite dget_dput. destruct (String.eqb n m); [reflexivity|exact H]. }
  constructor; auto. intros T m H. apply M, T. exact H.
Qed.
Lemma grows_policy : forall (t : tracker) n name e i, grows t (add_peer_policy fname t n name e i).
Proof using.
  intros t n name e i. unfold add_peer_policy. destruct (dget (t_items t) n) eqn:En; [|apply grows_refl]. constructor; auto.
  - intros T m H. unfold known in H. cbn [set_of t_of] in H. rewrite dget_dput in H. unfold item_at. cbn [set_of t_items]. destruct (String.eqb_spec n m) as [->|N]; [rewrite En; reflexivity|apply T; exact H].
  - intros m H. unfold known in *. cbn [set_of t_of]. rewrite dget_dput. destruct (String.eqb n m); [reflexivity|exact H].
Qed.
Lemma grows_default : forall (t : tracker) s d ing, grows t (add_default_policy fname t s d ing).
Proof using. intros t s d ing. unfold add_default_policy. apply grows_fold. intros u x. destruct (policy_list_empty _ _ _); [apply grows_policy|apply grows_refl]. Qed.
Lemma grows_selected : forall t (p : policy) t', add_policy_to_peers A ends fname t p = Some t' -> grows t t'.
Proof using.
  intros t p t'. unfold add_policy_to_peers. refine (grows_foldM (fun t x => _) (p_selected p) t t' _). intros u x u'. destruct (extract_peers ends u (allow_props A p true)) as [i|]; cbn [bind]; [|discriminate].
  destruct (extract_peers ends u (allow_props A p false)) as [e|]; cbn [bind]; [|discriminate]. intros E. injection E as <-. apply grows_policy.
Qed.
Lemma grows_load : forall t docs gates sides t', load A ends fname t docs gates sides = Some t' -> grows t t'.
Proof using.
  intros t docs gates sides t'. unfold load. destruct (foldM (load_doc A ends fname) docs t) as [u|] eqn:E1; cbn [bind]; [|discriminate].
  destruct (foldM (load_gate A ends fname) gates u) as [v|] eqn:E2; cbn [bind]; [|discriminate]. intros E3. apply (grows_trans t u); [|apply (grows_trans u v)].
  - refine (grows_foldM _ docs t u _ E1). intros w [p path ln|n path ln] w' H; cbn [load_doc] in H.
    + destruct (add_policy_to_peers A ends fname w p) as [x|] eqn:Ex; cbn [bind] in H; [|discriminate]. injection H as <-. apply (grows_trans w x); [eapply grows_selected; exact Ex|apply grows_item].
    + injection H as <-. apply grows_item.
  - refine (grows_foldM _ gates u v _ E2). intros w [[p path] ln] w' H. unfold load_gate in H. cbn [fst snd] in H. apply (grows_trans w (add_item w path ln (p_name p) "")); [apply grows_item|eapply grows_selected; exact H].
  - refine (grows_foldM _ sides v t' _ E3). intros w p w' H. eapply grows_selected. exact H.
Qed.
Lemma grows_layer : forall ps t l t', track_layer A ends fname ps t l = Some t' -> grows t t'.
Proof using.
  intros ps t [n pols] t'. unfold track_layer. cbn [fst snd]. refine (grows_foldM _ _ t t' _). intros u ing u' H. unfold track_dir in H. destruct (default_conns A n ps pols ing) as [x|]; [|injection H as <-; apply grows_refl].
  destruct (extract_peers ends u x) as [sd|]; cbn [bind] in H; [|discriminate]. injection H as <-. apply grows_default.
Qed.
(** One peer of set_connections_and_peers. *)
Lemma default_known : forall (t : tracker) p peers, tidy t -> fname p <> "" -> let t1 := match dget (t_of t) (fname p) with Some _ => t | None =>
    let t := match dget (t_items t) (fname p) with Some _ => t | None => add_item t "" 0 (fname p) "" end in
    add_default_policy fname (add_default_policy fname t [p] peers false) peers [p] true end in
  grows t t1 /\ known t1 (fname p) = true.
Proof using.
  intros t p peers T Hn. cbv zeta. destruct (dget (t_of t) (fname p)) eqn:Eo; [split; [apply grows_refl|unfold known; rewrite Eo; reflexivity]|].
  set (u := match dget (t_items t) (fname p) with Some _ => t | None => add_item t "" 0 (fname p) "" end).
  assert (Gu : grows t u) by (unfold u; destruct (dget (t_items t) (fname p)); [apply grows_refl|apply grows_item]).
  assert (Iu : item_at u (fname p) = true).
  { unfold u. destruct (dget (t_items t) (fname p)) eqn:Ei; [unfold item_at; rewrite Ei; reflexivity|]. unfold add_item. destruct (String.eqb_spec (fname p) ""); [congruence|]. unfold item_at. cbn [set_items t_items]. rewrite dget_dput, String.eqb_refl. reflexivity. }
  assert (Ou : dget (t_of u) (fname p) = None) by (unfold u; destruct (dget (t_items t) (fname p)); [exact Eo|unfold add_item; destruct (String.eqb (fname p) ""); exact Eo]).
  clearbody u. assert (K1 : known (add_default_policy fname u [p] peers false) (fname p) = true).
  { unfold add_default_policy. cbn [fold_left]. unfold policy_list_empty. rewrite Ou. unfold add_peer_policy. unfold item_at in Iu. destruct (dget (t_items u) (fname p)); [|discriminate]. unfold known. cbn [set_of t_of]. rewrite dget_dput, String.eqb_refl. reflexivity. }
  split; [|apply (gr_known _ _ (grows_default _ _ _ _)); exact K1]. apply (grows_trans t u); [exact Gu|]. apply (grows_trans u (add_default_policy fname u [p] peers false)); apply grows_default.
Qed.
Lemma connections_known : forall (t : tracker) x peers, tidy t -> (forall p, In p peers -> fname p <> "") -> let t' := set_connections_and_peers fname t x peers in
  tidy t' /\ t_conns t' = Some x /\ t_peers t' = peers /\ t_ep t' = t_ep t /\ forall p, In p peers -> known t' (fname p) = true.
Proof using.
  intros t x peers T Hn. cbv zeta. unfold set_connections_and_peers.
  assert (G : forall l (u : tracker), tidy u -> (forall p, In p l -> fname p <> "") -> let u' := fold_left (fun t p => match dget (t_of t) (fname p) with Some _ => t | None =>
      let t := match dget (t_items t) (fname p) with Some _ => t | None => add_item t "" 0 (fname p) "" end in
      add_default_policy fname (add_default_policy fname t [p] peers false) peers [p] true end) l u in grows u u' /\ forall p, In p l -> known u' (fname p) = true).
  { induction l as [|p l IH]; intros u Tu Hl; cbn [fold_left]; cbv zeta; [split; [apply grows_refl|intros p []]|]. destruct (default_known u p peers Tu (Hl p (or_introl eq_refl))) as [G1 K1]. cbv zeta in G1, K1.
    specialize (IH _ (gr_tidy _ _ G1 Tu) (fun q H => Hl q (or_intror H))). cbv zeta in IH. destruct IH as [G2 K2]. split; [eapply grows_trans; [exact G1|exact G2]|]. intros q [<-|Hq]; [apply (gr_known _ _ G2); exact K1|apply K2; exact Hq]. }
  specialize (G peers (Tracker (t_items t) (t_of t) (Some x) peers (t_ep t)) T Hn). cbv zeta in G. destruct G as [G K]. split; [apply (gr_tidy _ _ G); exact T|]. split; [apply (gr_conns _ _ G)|]. split; [apply (gr_peers _ _ G)|]. split; [apply (gr_ep _ _ G)|exact K].
Qed.
Section Run.
Context (cl : cluster) (owner workload : peer -> string) (Q : qops C) (h6 : policy -> bool).
Lemma tracked_known : forall ep items docs gates sides flag s g t, tracked A ends fname cl owner workload Q h6 ep items docs gates sides flag s g = Some t ->
  exists t' ps, expl_peers A ends cl owner workload Q h6 t' flag s g = Some ps /\ ((forall p, In p ps -> fname p <> "") ->
    tidy t /\ t_conns t <> None /\ t_peers t = ps /\ t_ep t = ep /\ forall p, In p ps -> known t (fname p) = true).
Proof using.
  intros ep items docs gates sides flag s g t E. unfold tracked in E. destruct (load _ _ _ _ _ _ _) as [t0|] eqn:El; cbn [bind] in E; [|discriminate].
  unfold run_map, track_config in E. destruct (foldM _ _ _) as [t1|] eqn:Ef; cbn [bind] in E; [|discriminate]. destruct (expl_peers _ _ _ _ _ _ _ t1 flag s g) as [ps|] eqn:Ep; cbn [bind] in E; [|discriminate]. injection E as <-.
  exists t1, ps. split; [exact Ep|]. intros Hn.
  assert (T0 : tidy (activate (C:=C) ep)) by (intros n H; discriminate H).
  assert (G0 : grows (activate ep) (load_items (activate ep) items)) by (unfold load_items; apply grows_fold; intros u [[[path ln] n] w]; apply grows_item).
  pose proof (grows_load _ _ _ _ _ El) as G1.
  assert (G2 : grows (set_peers t0 (g_peers g)) t1) by (refine (grows_foldM _ _ _ _ _ Ef); intros u l u' H; eapply grows_layer; exact H).
  assert (T2 : tidy (set_peers t0 (g_peers g))) by (exact (gr_tidy _ _ G1 (gr_tidy _ _ G0 T0))).
  pose proof (connections_known t1 (expl_conns A cl owner workload Q h6 flag s g) ps (gr_tidy _ _ G2 T2) Hn) as K. cbv zeta in K. destruct K as (K1 & K2 & K3 & K4 & K5).
  split; [exact K1|]. split; [rewrite K2; discriminate|]. split; [exact K3|]. split; [|exact K5]. rewrite K4, (gr_ep _ _ G2). cbn [set_peers t_ep]. rewrite (gr_ep _ _ G1), (gr_ep _ _ G0). reflexivity.
Qed.
End Run.

(** ** The entries *)
Lemma printout_plain : forall (t : tracker) n, t_ep t <> "deployments" -> printout_name t n = Some n.
Proof using. intros t n H. unfold printout_name. destruct (String.eqb_spec (t_ep t) "deployments"); [congruence|reflexivity]. Qed.
Lemma explain_ok : forall (t : tracker) nodes, t_ep t <> "deployments" -> tidy t -> t_conns t <> None -> (nodes = [] -> False) -> List.length nodes <= 2 ->
  (forall n, In n nodes -> working_name t n = n /\ known t n = true /\ exists p, In p (t_peers t) /\ fname p = n) -> exists r text, explain_nodes A fname t nodes = Some r /\ r <> RNone /\ explain A fname t nodes = Some text.
Proof using.
  intros t nodes He T Hc Ne Ln H.
  assert (Re : forallb (has_results t) nodes = true).
  { apply forallb_forall. intros n Hn. destruct (H n Hn) as (W & K & _). unfold has_results. rewrite W. pose proof (T n K) as I. unfold item_at, known in *. destruct (dget (t_items t) n); [|discriminate]. destruct (dget (t_of t) n); [reflexivity|discriminate]. }
  assert (It : forall n, In n nodes -> exists e, dget (t_items t) n = Some e).
  { intros n Hn. destruct (H n Hn) as (_ & K & _). pose proof (T n K) as I. unfold item_at in I. destruct (dget (t_items t) n) as [e|]; [exists e; reflexivity|discriminate]. }
  assert (NL : forall n r d, In n nodes -> exists l, node_lines t n r d = Some l).
  { intros n r d Hn. unfold node_lines. rewrite printout_plain by exact He. cbn [bind]. destruct (It n Hn) as (e & ->). cbn [bind]. eexists. reflexivity. }
  assert (PB : forall n, In n nodes -> exists p, peer_by_name fname t n = Some p).
  { intros n Hn. destruct (H n Hn) as (_ & _ & p & Hp & Ep). unfold peer_by_name. destruct (find _ (t_peers t)) as [q|] eqn:Ef; [exists q; reflexivity|]. pose proof (List.find_none _ _ Ef p Hp) as X. cbn beta in X. rewrite Ep, String.eqb_refl in X. discriminate. }
  destruct nodes as [|n [|m [|x nodes]]]; [destruct (Ne eq_refl)| | |cbn in Ln; lia].
  - exists (ROne n (policies_of t n (fun a => Some (af_all a)))). destruct (H n (or_introl eq_refl)) as (W & _). unfold explain, explain_nodes. rewrite Re. cbn [negb]. rewrite W. cbn [bind report_lines]. rewrite printout_plain by exact He. cbn [bind].
    destruct (NL n (policies_of t n (fun a => Some (af_all a))) None (or_introl eq_refl)) as (l & ->). cbn [bind]. eexists. split; [reflexivity|]. split; [discriminate|reflexivity].
  - destruct (H n (or_introl eq_refl)) as (Wn & _). destruct (H m (or_intror (or_introl eq_refl))) as (Wm & _). unfold explain, explain_nodes. rewrite Re. cbn [negb]. rewrite Wn, Wm. unfold peers_connected.
    destruct (PB n (or_introl eq_refl)) as (p & ->). destruct (PB m (or_intror (or_introl eq_refl))) as (q & ->). cbn [bind]. destruct (t_conns t) as [x|]; [|destruct (Hc eq_refl)]. cbn [bind].
    set (b := c_bool A _). assert (X : forall rs rd, exists text, bind (report_lines t (RTwo b n m rs rd)) (fun l => Some (join (String newline "") l)) = Some text).
    { intros rs rd. cbn [report_lines]. rewrite !printout_plain by exact He. cbn [bind]. destruct (NL n rs (Some "src") (or_introl eq_refl)) as (l & ->). destruct (NL m rd (Some "dst") (or_intror (or_introl eq_refl))) as (l' & ->). cbn [bind]. eexists. reflexivity. }
    clearbody b. destruct b; (destruct (X (policies_of t n (fun a => dget (af_egress a) m)) (policies_of t m (fun a => dget (af_ingress a) n))) as (tx & Et) || idtac); [|destruct (X (policies_of t n (fun a => Some (af_all a))) (policies_of t m (fun a => Some (af_all a)))) as (ty & Et')];
      eexists; eexists; (split; [reflexivity|]); (split; [discriminate|]); [exact Et|exact Et'].
Qed.
(** explain_all for names that stand for themselves: the names, in order, and an entry for each ordered pair. *)
Lemma all_names_spec : forall (t : tracker), t_ep t <> "deployments" -> exists names, all_names fname t = Some names /\ ascending names /\ forall n, In n names <-> exists p, In p (t_peers t) /\ fname p = n.
Proof using.
  intros t He. unfold all_names.
  assert (G : forall l a b, exists r, foldM (fun st p => bind (printout_name t (fname p)) (fun d => Some (if String.eqb (t_ep t) "deployments" && smem d (snd st) then st else (PortProtoModel.sadd (fname p) (fst st), PortProtoModel.sadd d (snd st))))) l (a, b) = Some r /\
     forall n, In n (fst r) <-> In n a \/ exists p, In p l /\ fname p = n).
  { induction l as [|p l IH]; intros a b; [exists (a, b); split; [reflexivity|]; intros n; cbn [fst]; split; [auto|intros [H|(p & [] & _)]; exact H]|].
    rewrite foldM_cons. rewrite printout_plain by exact He. cbn [bind]. destruct (String.eqb_spec (t_ep t) "deployments"); [congruence|]. cbn [andb fst snd]. destruct (IH (PortProtoModel.sadd (fname p) a) (PortProtoModel.sadd (fname p) b)) as (r & Er & Hr).
    exists r. split; [exact Er|]. intros n0. rewrite Hr, sadd_In. split.
    - intros [[->|Ha]|(q & Hq & E)]; [right; exists p; split; [left; reflexivity|reflexivity]|left; exact Ha|right; exists q; split; [right; exact Hq|exact E]].
    - intros [Ha|(q & [<-|Hq] & E)]; [auto|left; left; symmetry; exact E|right; exists q; auto]. }
  destruct (G (t_peers t) [] []) as (r & Er & Hr). match goal with |- context [bind ?o _] => replace o with (Some r) by (symmetry; exact Er) end. cbn [bind]. exists (sorted_set (fst r)). split; [reflexivity|]. split.
  - clear. induction (fst r) as [|x l IH]; cbn [sorted_set fold_right]; [constructor|apply insert_str_ascending; exact IH].
  - intros n. rewrite sorted_set_In, Hr. split; [intros [[]|H]; exact H|auto].
Qed.
Lemma explain_all_spec : forall (t : tracker), t_ep t <> "deployments" -> tidy t -> t_conns t <> None -> (forall p, In p (t_peers t) -> working_name t (fname p) = fname p /\ known t (fname p) = true) ->
  exists names out, explain_all A fname t = Some out /\ ascending names /\ (forall n, In n names <-> exists p, In p (t_peers t) /\ fname p = n) /\
    map fst out = list_prod names names /\
    (forall a b text, In (a, b, text) out -> exists r, explain_nodes A fname t (if String.eqb a b then [a] else [a; b]) = Some r /\ r <> RNone /\ explain A fname t (if String.eqb a b then [a] else [a; b]) = Some text).
Proof using.
  intros t He T Hc Hp. destruct (all_names_spec t He) as (names & En & As & Hn). exists names. unfold explain_all. rewrite En. cbn [bind].
  assert (LP : forall l1 l2 : list string, flat_map (fun a => map (fun b => (a, b)) l2) l1 = list_prod l1 l2) by (induction l1 as [|x l1 IH]; intros l2; cbn [flat_map list_prod]; [reflexivity|rewrite IH; reflexivity]).
  rewrite LP.
  assert (OK : forall ab, In ab (list_prod names names) -> exists r text, let nodes := if String.eqb (fst ab) (snd ab) then [fst ab] else [fst ab; snd ab] in
    explain_nodes A fname t nodes = Some r /\ r <> RNone /\ explain A fname t nodes = Some text).
  { intros [a b] H. apply in_prod_iff in H as [Ha Hb]. cbn [fst snd]. cbv zeta.
    assert (X : forall n, In n names -> working_name t n = n /\ known t n = true /\ exists p, In p (t_peers t) /\ fname p = n) by (intros n H; apply Hn in H as (p & Hq & <-); destruct (Hp p Hq); split; [assumption|]; split; [assumption|]; exists p; auto).
    apply explain_ok; auto; [destruct (String.eqb a b); discriminate|destruct (String.eqb a b); cbn; lia|]. intros n H. apply X. destruct (String.eqb a b); cbn in H; intuition (subst; auto). }
  revert OK. generalize (list_prod names names) as l. induction l as [|[a b] l IH]; intros OK; [exists []; cbn [mapM]; split; [reflexivity|]; split; [exact As|]; split; [exact Hn|]; split; [reflexivity|intros a b text []]|].
  destruct IH as (out & Eo & _ & _ & Em & Ho); [intros ab H; apply OK; right; exact H|]. destruct (OK (a, b) (or_introl eq_refl)) as (r & text & E1 & E2 & E3). cbn [fst snd] in E1, E3.
  exists ((a, b, text) :: out). cbn [mapM fst snd]. rewrite E3. cbn [bind]. rewrite !printout_plain by exact He. cbn [bind]. rewrite Eo. cbn [bind]. split; [reflexivity|]. split; [exact As|]. split; [exact Hn|]. split; [cbn [map fst]; rewrite Em; reflexivity|].
  intros a' b' text' [H|H]; [injection H as <- <- <-; exists r; auto|apply Ho; exact H].
Qed.
End All.
