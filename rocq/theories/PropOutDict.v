(** * C80: the dictionaries of the answers to emptiness and redundancy. *)
From Coq Require Import ZArith List Bool Arith String Ascii Lia Permutation.
From Verif Require Import IntervalModel TextModel TextFacts PortProtoModel ConnTextModel GraphModel GraphFacts PeerModel PolicyModel QueryModel YamlModel ExplModel ExplFacts OutModel OutFacts PropOut.
Import ListNotations.
Local Open Scope string_scope.
Local Open Scope list_scope.
Local Open Scope nat_scope.

(** ** Specification *)
(** Texts without white space. *)
Fixpoint spaceless (s : string) : bool := match s with EmptyString => true | String a t => negb (is_space a) && spaceless t end.
(** Dictionaries of explanations of an output. *)
Definition part (d e : list (string * ov)) : Prop := exists ex, dget d "explanation" = Some (OList ex) /\ In (ODict e) ex.
Definition names_policy (d : list (string * ov)) (n : string) : Prop := exists e l, part d e /\ dget e "policies" = Some (OList l) /\ In (OStr n) l.
Definition names_rule (d : list (string * ov)) (ing : bool) (n : string) (i : nat) : Prop :=
  exists e l r is, part d e /\ dget e "pairs" = Some (OList l) /\ In (ODict r) l /\ dget r "policy" = Some (OStr n) /\
    dget r (if ing then "ingress_rules_indexes" else "egress_rules_indexes") = Some (OList is) /\ In (OStr (str_nat i)) is.
(** ** Proofs *)
Lemma spaceless_solid : forall s, s <> "" -> spaceless s = true -> solid s.
Proof.
  intros s N H. split; auto. clear N. induction s as [|a s IH]; cbn in *; [reflexivity|]. apply andb_true_iff in H as [H1 H2]. destruct (is_space a); [discriminate|]. rewrite IH by auto. reflexivity.
Qed.
Section Dicts.
Context {C : Type}.
Definition plain_name (p : @policy C) : Prop := full_name p <> "" /\ spaceless (full_name p) = true /\ type_str p = "NetworkPolicy".
Lemma title_name : forall p : @policy C, plain_name p -> name_of_title (title p) = Some (full_name p).
Proof.
  intros p (N & S & T). unfold name_of_title, title. rewrite T. change ("NetworkPolicy" ++ " " ++ full_name p)%string with ("NetworkPolicy" ++ String " " (full_name p))%string.
  rewrite words_two; [reflexivity|split; [discriminate|reflexivity]|apply spaceless_solid; auto].
Qed.
Lemma titles_names : forall ps : list (@policy C), (forall p, In p ps -> plain_name p) -> mapM name_of_title (map title ps) = Some (map full_name ps).
Proof. induction ps as [|p ps IH]; intros H; cbn [map mapM]; auto. rewrite title_name by (apply H; left; auto). rewrite IH by (intros; apply H; right; auto). reflexivity. Qed.
Definition rule_item (ing : bool) (n : string) (l : list nat) : ov := ODict [("policy", OStr n); ((direction ing ++ "_rules_indexes")%string, OList (map (fun i => OStr (str_nat i)) l))].
Lemma rules_dict_ok : forall desc ing (f : @policy C -> list nat) ps, (forall p, In p ps -> plain_name p) ->
  rules_dict desc ing (map (fun p => (title p, f p)) ps) = Some (ODict [("description", OStr (xgress_description desc ing)); ("pairs", OList (map (fun p => rule_item ing (full_name p) (f p)) ps))]).
Proof.
  intros desc ing f ps H. unfold rules_dict.
  assert (E : forall g0 : string * list nat -> option ov, (forall p, In p ps -> g0 (title p, f p) = Some (rule_item ing (full_name p) (f p))) ->
            mapM g0 (map (fun p => (title p, f p)) ps) = Some (map (fun p => rule_item ing (full_name p) (f p)) ps)).
  { intros g0. clear H. induction ps as [|p ps IH]; intros H; cbn; auto. rewrite (H p (or_introl eq_refl)), IH by (intros; apply H; right; auto). reflexivity. }
  rewrite E; [reflexivity|]. intros p Hp. cbn [fst snd]. rewrite title_name by auto. reflexivity.
Qed.
Lemma rules_in_dict : forall (cstr : C -> string) desc (L Li Le : list (@policy C)) f h, (forall p, In p (L ++ Li ++ Le) -> plain_name p) ->
  exists l, in_dict cstr (ERules desc (map title L) (map (fun p => (title p, f p)) Li) (map (fun p => (title p, h p)) Le)) = Some l /\
    forall e, In (ODict e) l <-> (L <> [] /\ e = [("description", OStr ("Policies" ++ desc)%string); ("policies", OList (map OStr (map full_name L)))]) \/
      (Li <> [] /\ e = [("description", OStr (xgress_description desc true)); ("pairs", OList (map (fun p => rule_item true (full_name p) (f p)) Li))]) \/
      (Le <> [] /\ e = [("description", OStr (xgress_description desc false)); ("pairs", OList (map (fun p => rule_item false (full_name p) (h p)) Le))]).
Proof.
  intros cstr desc L Li Le f h H. cbn [in_dict].
  rewrite titles_names by (intros; apply H; apply in_app_iff; auto). rewrite !rules_dict_ok by (intros; apply H; rewrite !in_app_iff; auto).
  assert (NE : forall {X Y} (k : X -> Y) l, nonempty (map k l) = nonempty l) by (intros X Y k [|x l]; reflexivity). rewrite !NE.
  assert (IN : forall X (l : list X) (a : bool) (x y : list (string * ov)), In (ODict y) (if nonempty l then [ODict x] else []) <-> l <> [] /\ y = x).
  { intros X [|z l] a x y; cbn; split; [intros []|intros [K _]; congruence|intros [K|[]]; injection K as ->; split; [discriminate|auto]|intros [_ ->]; auto]. }
  destruct L as [|p L], Li as [|q Li], Le as [|r Le]; cbn [nonempty bind app]; eexists; (split; [reflexivity|]); intros e; cbn [In];
    (split; [intros K; repeat (destruct K as [K|K]; [injection K as <-|]); try (destruct K)|intros [[K ->]|[[K ->]|[K ->]]]]); try congruence; auto; try (left; split; [discriminate|reflexivity]);
    try (right; left; split; [discriminate|reflexivity]); try (right; right; split; [discriminate|reflexivity]).
Qed.

(** ** C80 *)
Theorem C80_emptiness_dict : forall (cstr : C -> string) name order (g : @config C) configs query, (forall l, Permutation (order l) l) -> told_apart g -> (forall p, of_layers g p -> plain_name p) ->
  exists d, dict_output cstr configs query (emptiness_answer name order g) = Some (ODict d) /\
    dget d "query" = Some (OStr query) /\ dget d "configs" = Some (OList (map OStr configs)) /\ dget d "numerical_result" = Some (OInt (a_num (emptiness g))) /\
    (forall n, names_policy d n <-> exists p, of_layers g p /\ full_name p = n /\ p_selected p = []) /\
    (forall ing n i, names_rule d ing n i <-> exists p, of_layers g p /\ full_name p = n /\ void_rule p ing i).
Proof.
  intros cstr name order g configs query P T S. assert (P' := P (layer_policies g)).
  assert (I : forall p, In p (order (layer_policies g)) <-> of_layers g p).
  { intros p. rewrite <- in_layers. split; apply Permutation_in; [auto|apply Permutation_sym; auto]. }
  assert (Nm : qa_num (emptiness_answer name order g) = a_num (emptiness g)).
  { unfold emptiness_answer, emptiness. rewrite emptiness_num by auto. destruct (emptiness_count g =? 0) eqn:Z; cbn [qa_num a_num]; [apply Nat.eqb_eq in Z; rewrite Z|]; reflexivity. }
  assert (Sk : qa_skip (emptiness_answer name order g) = false) by (unfold emptiness_answer; destruct (_ =? 0); reflexivity).
  assert (Rs : qa_result (emptiness_answer name order g) <> "") by (unfold emptiness_answer; destruct (_ =? 0); discriminate).
  assert (Sh := emptiness_shape name order g P' T).
  set (L := filter (fun p : @policy C => negb (pbool (p_selected p))) (order (layer_policies g))) in *.
  set (Ls := fun d => filter (fun p : @policy C => nonempty (empty_rules p d)) (order (layer_policies g))) in *.
  assert (IL : forall p, In p L <-> of_layers g p /\ p_selected p = []).
  { intros p. subst L. rewrite filter_In, I. destruct (p_selected p); cbn; split; intros [A B]; split; auto; discriminate. }
  assert (ILs : forall d p, In p (Ls d) <-> of_layers g p /\ empty_rules p d <> []).
  { intros d p. subst Ls. cbv beta. rewrite filter_In, I. destruct (empty_rules p d); cbn; split; intros [A B]; split; auto; congruence. }
  change (entries (fun p => empty_rules p true) (order (layer_policies g))) with (map (fun p => (title p, empty_rules p true)) (Ls true)) in Sh.
  change (entries (fun p => empty_rules p false) (order (layer_policies g))) with (map (fun p => (title p, empty_rules p false)) (Ls false)) in Sh.
  unfold dict_output. rewrite Sk, Nm. destruct (String.eqb_spec (qa_result (emptiness_answer name order g)) "") as [X|_]; [congruence|].
  destruct Sh as [(desc & Sh)|(Sh & N1 & N2 & N3)]; rewrite Sh; cbn [nonempty].
  - destruct (rules_in_dict cstr desc L (Ls true) (Ls false) (fun p => empty_rules p true) (fun p => empty_rules p false)) as (l & E & M).
    { intros p Hp. apply S. rewrite !in_app_iff in Hp. destruct Hp as [H|[H|H]]; [apply IL in H|apply ILs in H|apply ILs in H]; tauto. }
    cbn [mapM]. rewrite E. cbn [bind List.concat]. rewrite app_nil_r. eexists. split; [reflexivity|]. split; [reflexivity|]. split; [reflexivity|]. split; [reflexivity|].
    set (d := _ ++ _). assert (PT : forall e, part d e <-> In (ODict e) l).
    { intros e. unfold part. split; [intros (ex & Q & H)|intros H; exists l; split; [reflexivity|auto]]. change (Some (OList l) = Some (OList ex)) in Q. injection Q as <-. auto. }
    split.
    + intros n. unfold names_policy. split.
      * intros (e & ns & H & K & J). apply PT, M in H as [[_ ->]|[[_ ->]|[_ ->]]]; try discriminate. injection K as <-. apply in_map_iff in J as (x & J & K). injection J as ->.
        apply in_map_iff in K as (p & <- & K). apply IL in K. exists p. tauto.
      * intros (p & H & <- & K). do 2 eexists. split; [apply PT, M; left; split; [|reflexivity]|split; [reflexivity|]].
        -- intros Z. assert (W : In p L) by (apply IL; auto). rewrite Z in W. destruct W.
        -- apply in_map, in_map. apply IL. auto.
    + assert (NI : forall i l', In (OStr (str_nat i)) (map (fun i => OStr (str_nat i)) l') <-> In i l').
      { intros i l'. rewrite in_map_iff. split; [intros (j & Q & H); injection Q as Q; apply str_nat_inj in Q; subst; auto|intros H; exists i; auto]. }
      intros ing n i. unfold names_rule. split.
      * intros (e & rs & r & is & H & K & J & A & B & D). apply PT, M in H as [[_ ->]|[[_ ->]|[_ ->]]]; try discriminate; injection K as <-; apply in_map_iff in J as (p & J & K); injection J as <-; injection A as <-;
          destruct ing; try discriminate; injection B as <-; apply NI in D; apply ILs in K; exists p; rewrite <- empty_rules_In; tauto.
      * intros (p & H & <- & K). apply empty_rules_In in K. assert (W : In p (Ls ing)) by (apply ILs; split; auto; intros Z; rewrite Z in K; destruct K).
        destruct ing.
        -- do 4 eexists. split; [apply PT, M; right; left; split; [|reflexivity]|split; [reflexivity|]]; [intros Z; rewrite Z in W; destruct W|].
           split; [apply in_map_iff; exists p; split; [reflexivity|exact W]|]. split; [reflexivity|]. split; [reflexivity|]. apply NI. auto.
        -- do 4 eexists. split; [apply PT, M; right; right; split; [|reflexivity]|split; [reflexivity|]]; [intros Z; rewrite Z in W; destruct W|].
           split; [apply in_map_iff; exists p; split; [reflexivity|exact W]|]. split; [reflexivity|]. split; [reflexivity|]. apply NI. auto.
  - eexists. split; [reflexivity|]. split; [reflexivity|]. split; [reflexivity|]. split; [reflexivity|].
    assert (Z0 : forall p, of_layers g p -> p_selected p <> []).
    { intros p H K. assert (W : In p L) by (apply IL; auto). apply map_eq_nil in N1. rewrite N1 in W. destruct W. }
    assert (Z1 : forall d p i, of_layers g p -> ~ void_rule p d i).
    { intros d p i H K. apply empty_rules_In in K. assert (W : In p (Ls d)) by (apply ILs; split; auto; intros Z; rewrite Z in K; destruct K).
      destruct d; [apply map_eq_nil in N2; rewrite N2 in W|apply map_eq_nil in N3; rewrite N3 in W]; destruct W. }
    split.
    + intros n. split; [intros (e & l & (ex & Q & _) & _); discriminate|intros (p & H & _ & K); exfalso; apply (Z0 p); auto].
    + intros ing n i. split; [intros (e & l & r & is & (ex & Q & _) & _); discriminate|intros (p & H & _ & K); exfalso; apply (Z1 ing p i); auto].
Qed.

(** Redundancy: with names that have no white space, the dictionary exists exactly when no policy is listed. *)
Lemma red_listed_count : forall A Q h6 rid (g : @config C), List.length (red_listed (redundancy_state A Q h6 rid g)) <= red_count (redundancy_state A Q h6 rid g).
Proof.
  intros A Q h6 rid g. unfold redundancy_state. assert (G : forall ls st, List.length (red_listed st) <= red_count st ->
    List.length (red_listed (fold_left (red_layer A Q h6 rid g) ls st)) <= red_count (fold_left (red_layer A Q h6 rid g) ls st)).
  { induction ls as [|l ls IH]; intros st H; cbn [fold_left]; auto. apply IH. unfold red_layer. destruct (is_gateway_layer (fst l)); auto. cbn [red_listed red_count]. lia. }
  apply G. cbn. lia.
Qed.
Lemma red_origin : forall A Q h6 rid (g : @config C) ls st (P : @policy C -> Prop),
  (forall n ps p, In (n, ps) ls -> is_gateway_layer n = false -> In p ps -> P p) ->
  (forall r, In r (red_rules st) -> P (fst (fst r))) -> (forall n, In n (red_listed st) -> exists p, P p /\ full_name p = n) ->
  (forall r, In r (red_rules (fold_left (red_layer A Q h6 rid g) ls st)) -> P (fst (fst r))) /\ (forall n, In n (red_listed (fold_left (red_layer A Q h6 rid g) ls st)) -> exists p, P p /\ full_name p = n).
Proof.
  intros A Q h6 rid g. induction ls as [|[n ps] ls IH]; intros st P H H1 H2; cbn [fold_left]; auto. apply IH.
  - intros n' ps' p K. apply (H n' ps'). right. auto.
  - unfold red_layer. cbn [fst snd]. destruct (is_gateway_layer n) eqn:G; [auto|]. cbn [red_rules]. intros r K. apply in_app_iff in K as [K|K]; [auto|].
    apply in_map_iff in K as (p & <- & K). apply filter_In in K as [K _]. cbn. apply (H n ps); auto. left. auto.
  - unfold red_layer. cbn [fst snd]. destruct (is_gateway_layer n) eqn:G; [auto|]. cbn [red_listed]. intros x K. unfold redundant_policies in K. destruct (1 <? List.length ps); [|destruct K].
    apply dedup_In, in_map_iff in K as (p & <- & K). apply filter_In in K as [K _]. exists p. split; auto. apply (H n ps); auto. left. auto.
Qed.
Theorem C80_redundancy_dict : forall (cstr : C -> string) cdiff name A Q h6 rid (g : @config C) configs query,
  (forall n ps p, In (n, ps) (lays (g_pols g)) -> is_gateway_layer n = false -> In p ps -> plain_name p) ->
  (dict_output cstr configs query (redundancy_answer name A Q h6 rid g) = None <-> red_listed (redundancy_state A Q h6 rid g) <> []) /\
  (forall is_txt, string_output cstr cdiff is_txt (redundancy_answer name A Q h6 rid g) <> None).
Proof.
  intros cstr cdiff name A Q h6 rid g configs query S. assert (Cn := red_listed_count A Q h6 rid g).
  destruct (red_origin A Q h6 rid g (lays (g_pols g)) (Red 0 [] []) plain_name S) as [O1 O2]; [intros r []|intros n []|]. fold (redundancy_state A Q h6 rid g) in O1, O2.
  unfold redundancy_answer. set (st := redundancy_state A Q h6 rid g) in *. destruct (0 <? red_count st) eqn:Z.
  - split; [|intros is_txt; cbn; discriminate]. unfold dict_output. cbn [qa_skip qa_expl qa_num qa_result nonempty mapM].
    assert (K : forall f : @policy C * list nat * list nat -> list nat, forall d ing rs (acc : list (string * list nat)), (forall r, In r rs -> plain_name (fst (fst r))) ->
              (forall e, In e acc -> name_of_title (fst e) <> None) -> rules_dict d ing (fold_left (fun d r => if nonempty (f r) then dput d (title (fst (fst r))) (f r) else d) rs acc) <> None).
    { intros f d ing. induction rs as [|r rs IH]; intros acc Hr Ha; cbn [fold_left].
      - assert (R : forall l : list (string * list nat), (forall e, In e l -> name_of_title (fst e) <> None) -> rules_dict d ing l <> None); [|auto].
        intros l Hl. unfold rules_dict. set (k := fun e : string * list nat => _). assert (M : mapM k l <> None).
        { clear Ha Hr. induction l as [|e l IH]; cbn [mapM]; [discriminate|]. specialize (Hl e (or_introl eq_refl)) as He. subst k. cbv beta. destruct (name_of_title (fst e)); [|congruence]. cbn [bind].
          destruct (mapM _ l); [discriminate|]. exfalso. apply IH; [intros; apply Hl; right; auto|reflexivity]. }
        destruct (mapM k l); [discriminate|congruence].
      - apply IH; [intros; apply Hr; right; auto|]. destruct (nonempty (f r)); auto. intros e He. unfold dput in He. assert (Y : name_of_title (title (fst (fst r))) <> None) by (rewrite title_name; [discriminate|apply Hr; left; auto]).
        destruct (existsb _ acc); [apply in_map_iff in He as (e0 & <- & He); destruct (String.eqb (fst e0) _); [exact Y|auto]|apply in_app_iff in He as [He|[<-|[]]]; [auto|exact Y]]. }
    assert (K1 := K (fun r => snd (fst r)) (" that are redundant in " ++ name)%string true (red_rules st) [] O1 ltac:(intros e [])). assert (K2 := K snd (" that are redundant in " ++ name)%string false (red_rules st) [] O1 ltac:(intros e [])).
    cbn [in_dict]. set (di := fold_left _ _ _) in *. set (de := fold_left (fun d r => if nonempty (snd r) then dput d (title (fst (fst r))) (snd r) else d) _ _) in *.
    destruct (rules_dict _ true di) as [x|]; [|congruence]. destruct (rules_dict _ false de) as [y|]; [|congruence]. cbn [bind].
    destruct (red_listed st) as [|n0 rest] eqn:E.
    + cbn [sorted_set fold_right nonempty bind]. split; [|congruence]. destruct (nonempty di), (nonempty de); cbn [bind app]; discriminate.
    + split; [discriminate|]. intros _. assert (I0 : In n0 (sorted_set (n0 :: rest))) by (apply sorted_set_In; left; auto).
      assert (SS : forall n, In n (sorted_set (n0 :: rest)) -> name_of_title n = None).
      { intros n H. apply (proj1 (sorted_set_In _ _)) in H. destruct (O2 n H) as (p & (N & B & _) & <-). unfold name_of_title. rewrite words_one by (apply spaceless_solid; auto). reflexivity. }
      destruct (sorted_set (n0 :: rest)) as [|m ms]; [destruct I0|]. cbn [nonempty mapM]. rewrite (SS m (or_introl eq_refl)). reflexivity.
  - assert (E : red_listed st = []) by (apply Nat.ltb_ge in Z; destruct (red_listed st); [auto|cbn in Cn; lia]). split; [|intros is_txt; cbn; discriminate].
    rewrite E. unfold dict_output. cbn [qa_skip qa_expl nonempty]. split; [discriminate|congruence].
Qed.
End Dicts.
