(** * C70-C72: the sanity query

    SanityModel.v run on the modelled ConnectivityProperties objects, like the queries of PropQueries.v. *)
From Coq Require Import ZArith List Bool Arith Lia String Permutation Sorting.
From Verif Require Import IntervalModel IntervalFacts HyperModel HyperFacts HyperTop HyperInst PropHyperCube ConnModel
                          PortProtoModel PeerModel PeerFacts PeerSetFacts PolicyModel PolicyLaws PolicyFacts LayerFacts
                          OrderFacts ConnAlg StdDims PropLayers QueryModel QueryFacts QueryAlg QuerySpecs SemDiff QueryOne
                          PropQueries SanityModel SanityFacts.
Import ListNotations.
Local Open Scope string_scope.
Local Open Scope nat_scope.
Local Open Scope list_scope.

Notation issue := (@issue (hc val)).

(** ** Vocabulary of the statements *)
(** The policy selects no peer. *)
Definition selects_none (p : policy) : Prop := forall x, ~ pt_in x (p_selected p).
(** One side of a rule has no peers: the source, or the destination (only looked at in Calico rules). *)
Definition side_empty (p : policy) (r : rule) (source : bool) : Prop :=
  if source then forall x, ~ pt_in x (r_src r) else is_calico p /\ forall x, ~ pt_in x (r_dst r).
(** The policy has a rule with this action in this direction that has peers on both sides. *)
Definition effective (p : policy) (ing : bool) (a : action) : Prop :=
  exists r, In r (rules_of p ing) /\ r_action r = a /\ (exists x, pt_in x (r_src r)) /\ (exists x, pt_in x (r_dst r)).
(** Two policies with the same order and a selected peer in common, one with an effective Allow rule, the other with an
    effective Deny rule in a direction both affect. *)
Definition at_odds (p q : policy) : Prop :=
  p_ord p = p_ord q /\ (exists x, pt_in x (p_selected p) /\ pt_in x (p_selected q)) /\
  exists ing, affected p ing /\ affected q ing /\
    ((effective p ing Allow /\ effective q ing Deny) \/ (effective p ing Deny /\ effective q ing Allow)).
Lemma at_odds_sym : forall p q, at_odds p q -> at_odds q p.
Proof.
  intros p q (E & (x & X1 & X2) & ing & A1 & A2 & H). split; [auto|]. split; [exists x; auto|]. exists ing. tauto.
Qed.

(** The policy has rules with peers that allow, or that deny. *)
Definition has_sources (rs : list rule) : Prop := exists r x, In r rs /\ pt_in x (r_src r).
Definition allowing (p : policy) : Prop :=
  match p_kind p with
  | TK8s => exists ing, has_sources (rules_of p ing)
  | TCalico | TCalicoGlobal | TCalicoProfile => exists ing, effective p ing Allow
  | TIstioAP => p_action p <> Deny /\ has_sources (p_ingress p)
  | TIngress | TGatewayPolicy => p_action p <> Deny /\ exists ing, has_sources (rules_of p ing)
  | _ => False
  end.
Definition denying (p : policy) : Prop :=
  match p_kind p with
  | TCalico | TCalicoGlobal | TCalicoProfile => exists ing, effective p ing Deny
  | TIstioAP => p_action p <> Allow /\ has_sources (p_ingress p)
  | TIngress | TGatewayPolicy => p_action p <> Allow /\ exists ing, has_sources (rules_of p ing)
  | _ => False
  end.
(** The search for explanations stops at such a policy. *)
Definition stops_at (p q : policy) : Prop := exists i j, get_order p = Some i /\ get_order q = Some j /\ i <> 0%Z /\ j <> 0%Z /\ (j < i)%Z.

Section Sanity.
Context (reg vis : list peer) (R : reg_ok reg) (HV : container reg vis) (NE : vis <> [])
        (rid : rule -> rule -> bool) (h6 : policy -> bool)
        (RS : forall r s, rid r s = true -> r = s) (RR : forall r, rid r r = true).
Let dom := query_dom reg vis.
Let QK := query_alg reg vis R HV NE.
Let A := cube_ops dom std_all reg.
Let Q := cube_qops dom std_all reg.
Let L := q_claws dom std_rest reg vis _ _ QK.
Let QL := q_qlaws dom std_rest reg vis _ _ QK.
Let NB : forall p, In p vis -> is_block p = false := fun p H => proj2 (HV p H).
Local Notation space := (a_space dom).
Local Notation from := (a_src reg).
Local Notation to := (a_dst reg).
Local Notation good := (good reg vis).
Local Notation plain := (plain reg vis).
Local Notation connects := (connects reg vis).
Local Notation captures := (captures reg vis).
Local Notation looks_at := (looks_at reg h6).
Local Notation ignores6 := (ignores6 h6).
Local Notation answerable := (answerable reg vis).
Local Notation same_layer := (same_layer reg vis h6).
Local Notation unique_rule := (unique_rule reg vis rid).
Local Notation sanity := (sanity A Q h6 rid).
Local Notation redundant := (redundant A Q h6 rid).
Local Notation rule_redundant := (rule_redundant A Q h6 rid).
Local Notation vacuity := (vacuity A Q h6 rid).
Local Notation without_policy := (without_policy A rid).
Local Notation replaced := (replaced A rid).
Local Notation clone_without_rule := (clone_without_rule A rid).

Lemma gateway_layers : forall n, is_gateway_layer n = false <-> n <> LK8sGateway /\ n <> LIstioGateway.
Proof using. clear. intros []; cbn; intuition discriminate. Qed.
Lemma calico_kind : forall p : policy, is_calico p <-> class_of (p_kind p) = CCalico.
Proof using. clear. apply calico_class. Qed.
Lemma selected_bool : forall (g : config) n pols p, blocks_inhabited g -> In (n, pols) (lays (g_pols g)) -> In p pols ->
  (pbool (p_selected p) = false <-> selects_none p) /\ (pbool (p_selected p) = true <-> ~ selects_none p).
Proof using.
  clear. intros g n pols p B H1 H2. destruct (B n pols p H1 H2) as [B1 _]. apply bool_void in B1. unfold selects_none. rewrite <- B1.
  destruct (pbool (p_selected p)); split; split; try congruence; try discriminate.
Qed.
Lemma sides_bool : forall (g : config) n pols p r ing, blocks_inhabited g -> In (n, pols) (lays (g_pols g)) -> In p pols -> In r (rules_of p ing) ->
  (pbool (r_src r) = false <-> forall x, ~ pt_in x (r_src r)) /\ (pbool (r_dst r) = false <-> forall x, ~ pt_in x (r_dst r)).
Proof using.
  clear. intros g n pols p r ing B H1 H2 Hr. destruct (B n pols p H1 H2) as [_ B2]. destruct (B2 r) as [V1 V2].
  - apply in_or_app. unfold rules_of in Hr. destruct ing; auto.
  - split; apply bool_void; assumption.
Qed.
Lemma bool_some : forall s, no_void s -> (pbool s = true <-> exists x, pt_in x s).
Proof using.
  clear. intros s V. pose proof (bool_void s V) as B. destruct (pbool s) eqn:E; split; try discriminate; auto.
  - intros _. destruct s as [|[k n|l] s]; [discriminate|exists (PN k n); left; reflexivity|]. destruct (V l (or_introl eq_refl)) as [y Hy]. exists (PA y). exists l. split; [left; auto|auto].
  - intros [x Hx]. exfalso. destruct B as [B _]. apply (B eq_refl x Hx).
Qed.

(** ** C70: what is reported *)
(** Every issue is reported once, and what is reported is: that the configuration is vacuous; the policies that select
    nothing; the empty sides of the rules of the others; and if the configuration is not vacuous, the redundant policies
    (more precisely, those with the name of a redundant policy of their layer), and the redundant rules of the others that
    are not empty. *)
Theorem C70_issues : forall g l, loaded g -> blocks_inhabited g -> sanity g = Some (Issues l) ->
  let vacuous := a_bool (vacuity g) = true in
  let twin_redundant n pols p := 1 < List.length pols /\ exists q, In q pols /\ full_name q = full_name p /\ redundant g n q = true in
  policy_list g <> [] /\ NoDup l /\ (In Vacuous l <-> vacuous) /\
  (forall p, In (EmptyPolicy p) l <-> (exists n pols, queried g n pols /\ In p pols) /\ selects_none p) /\
  (forall p ing k source, In (EmptyRule p ing k source) l <->
     (exists n pols, queried g n pols /\ In p pols) /\ ~ selects_none p /\ considered p ing /\ 1 <= k /\
     exists r, nth_error (rules_of p ing) (k - 1) = Some r /\ side_empty p r source) /\
  (forall p, (exists w, In (RedundantPolicy p w) l) <->
     exists n pols, queried g n pols /\ In p pols /\ ~ selects_none p /\ ~ vacuous /\ twin_redundant n pols p) /\
  (forall p ing k, (exists w, In (RedundantRule p ing k w) l) <->
     exists n pols, queried g n pols /\ In p pols /\ ~ selects_none p /\ ~ vacuous /\ ~ twin_redundant n pols p /\ 1 <= k /\
       exists r, nth_error (rules_of p ing) (k - 1) = Some r /\ rule_redundant g n p ing r = true /\ ~ (considered p ing /\ empty_rule p r)).
Proof using.
  clear R HV NE QK L QL NB RS RR. intros g l LD B H vacuous twin. pose proof (loaded_inv g LD) as I.
  pose proof (sanity_each A Q h6 rid g l) as EACH. destruct (sanity_issues A Q h6 rid g l I H) as (HP & _ & ND & M). specialize (fun n pols p => EACH n pols p H).
  set (vac := a_bool (vacuity g)) in *.
  assert (TW : forall n pols p, named_in p (redundant_policies A Q h6 rid g pols n) <-> twin n pols p).
  { intros n pols p. unfold named_in, twin. rewrite <- (names_spec A Q rid h6 g n pols (full_name p)). reflexivity. }
  assert (QD : forall n pols, queried g n pols <-> In (n, pols) (lays (g_pols g)) /\ is_gateway_layer n = false).
  { intros n pols. unfold queried. rewrite gateway_layers. tauto. }
  split; [unfold policy_list; unfold has_policies in HP; destruct (policies (g_pols g)); [discriminate|cbn [map]; discriminate]|]. split; [exact ND|].
  split; [|split; [|split; [|split]]].
  - rewrite M. split.
    + intros [[_ V]|(n & pols & p & li & _ & _ & _ & E & Hi)]; [exact V|]. apply policy_issues_spec in E as (_ & AB & _). destruct (AB _ Hi).
    + intros V. left. auto.
  - intros p. rewrite M. split.
    + intros [[X _]|(n & pols & q & li & H1 & H2 & H3 & E & Hi)]; [discriminate|]. apply policy_issues_spec in E as (_ & _ & E). apply E in Hi as [[X S]|[[_ X]|[(_ & _ & _ & w & X & _)|(_ & _ & _ & ing & k & r & w & X & _)]]]; try discriminate.
      * injection X as ->. split; [exists n, pols; rewrite QD; auto|]. apply (selected_bool g n pols q B H1 H3). exact S.
      * apply empty_issues_spec in X as (ing & k & r & b & X & _). discriminate.
    + intros ((n & pols & Hq & Hp) & S). apply QD in Hq as [H1 H2]. right. destruct (EACH n pols p H1 H2 Hp) as (li & E). exists n, pols, p, li.
      do 4 (split; [assumption|]). apply policy_issues_spec in E as (_ & _ & E). apply E. left. split; [reflexivity|]. apply (selected_bool g n pols p B H1 Hp). exact S.
  - intros p ing k b. rewrite M.
    assert (ER : forall n pols q, In (n, pols) (lays (g_pols g)) -> In q pols -> (In (EmptyRule p ing k b) (empty_issues q) <-> q = p /\ considered p ing /\ 1 <= k /\
      exists r, nth_error (rules_of p ing) (k - 1) = Some r /\ side_empty p r b)).
    { intros n pols q H1 H2. rewrite empty_issues_spec. split.
      - intros (ing' & k' & r & b' & X & LA & K1 & K2 & S). injection X as -> <- <- <-. split; [reflexivity|]. split; [apply considered_class; exact LA|]. split; [exact K1|].
        exists r. split; [exact K2|]. pose proof (sides_bool g n pols q r ing B H1 H2 (nth_error_In _ _ K2)) as [S1 S2]. unfold side_empty. destruct b; [apply S1; exact S|]. rewrite calico_kind. split; [apply S|apply S2; apply S].
      - intros (-> & CO & K1 & r & K2 & S). exists ing, k, r, b. split; [reflexivity|]. split; [apply considered_class; exact CO|]. split; [exact K1|]. split; [exact K2|].
        pose proof (sides_bool g n pols p r ing B H1 H2 (nth_error_In _ _ K2)) as [S1 S2]. unfold side_empty in S. destruct b; [apply S1; exact S|]. rewrite calico_kind in S. split; [apply S|apply S2; apply S]. }
    split.
    + intros [[X _]|(n & pols & q & li & H1 & H2 & H3 & E & Hi)]; [discriminate|]. apply policy_issues_spec in E as (_ & _ & E). apply E in Hi as [[X _]|[[S X]|[(_ & _ & _ & w & X & _)|(_ & _ & _ & ing' & k' & r & w & X & _)]]]; try discriminate.
      apply (ER n pols q H1 H3) in X as (-> & X). split; [exists n, pols; rewrite QD; auto|]. split; [apply (selected_bool g n pols p B H1 H3); exact S|exact X].
    + intros ((n & pols & Hq & Hp) & S & X). apply QD in Hq as [H1 H2]. right. destruct (EACH n pols p H1 H2 Hp) as (li & E). exists n, pols, p, li.
      do 4 (split; [assumption|]). apply policy_issues_spec in E as (_ & _ & E). apply E. right. left. split; [apply (selected_bool g n pols p B H1 Hp); exact S|].
      apply (ER n pols p H1 Hp). auto.
  - intros p. split.
    + intros (w & Hi). apply M in Hi as [[X _]|(n & pols & q & li & H1 & H2 & H3 & E & Hi)]; [discriminate|]. apply policy_issues_spec in E as (_ & _ & E).
      apply E in Hi as [[X _]|[[_ X]|[(S & V & N & w' & X & _)|(_ & _ & _ & ing & k & r & w' & X & _)]]]; try discriminate.
      * apply empty_issues_spec in X as (ing & k & r & b & X & _). discriminate.
      * injection X as <- <-. exists n, pols. rewrite QD. split; [auto|]. split; [exact H3|]. split; [apply (selected_bool g n pols p B H1 H3); exact S|].
        split; [unfold vacuous; rewrite V; discriminate|]. apply TW. exact N.
    + intros (n & pols & Hq & Hp & S & V & T). apply QD in Hq as [H1 H2]. destruct (EACH n pols p H1 H2 Hp) as (li & E). pose proof E as E'.
      apply (selected_bool g n pols p B H1 Hp) in S. assert (V' : vac = false) by (unfold vacuous in V; destruct vac; [congruence|reflexivity]). apply TW in T.
      apply explained_issues in E' as [X _]; auto. destruct (X T) as (w & W). exists w. apply M. right. exists n, pols, p, li. do 4 (split; [assumption|]).
      apply policy_issues_spec in E as (_ & _ & E). apply E. right. right. left. do 3 (split; [assumption|]). exists w. auto.
  - intros p ing k. assert (EM : forall n pols r, In (n, pols) (lays (g_pols g)) -> In p pols -> 1 <= k -> nth_error (rules_of p ing) (k - 1) = Some r -> (In k (empty_rules p ing) <-> considered p ing /\ empty_rule p r)).
    { intros n pols r H1 H2 K1 K2. destruct (C34_emptiness g B) as (_ & _ & X). rewrite (X n pols p ing k H1 H2). split.
      - intros (CO & r' & _ & K2' & E). rewrite K2 in K2'. injection K2' as <-. auto.
      - intros (CO & E). split; [exact CO|]. exists r. auto. }
    split.
    + intros (w & Hi). apply M in Hi as [[X _]|(n & pols & q & li & H1 & H2 & H3 & E & Hi)]; [discriminate|]. apply policy_issues_spec in E as (_ & _ & E).
      apply E in Hi as [[X _]|[[_ X]|[(_ & _ & _ & w' & X & _)|(S & V & N & ing' & k' & r & w' & X & K1 & K2 & K3 & K4 & _)]]]; try discriminate.
      * apply empty_issues_spec in X as (ing' & k' & r & b & X & _). discriminate.
      * injection X as <- <- <- <-. exists n, pols. rewrite QD. split; [auto|]. split; [exact H3|]. split; [apply (selected_bool g n pols p B H1 H3); exact S|].
        split; [unfold vacuous; rewrite V; discriminate|]. split; [rewrite <- TW; exact N|]. split; [exact K1|]. exists r. split; [exact K2|]. split; [exact K3|].
        rewrite <- (EM n pols r H1 H3 K1 K2). exact K4.
    + intros (n & pols & Hq & Hp & S & V & T & K1 & r & K2 & K3 & K4). apply QD in Hq as [H1 H2]. destruct (EACH n pols p H1 H2 Hp) as (li & E). pose proof E as E'.
      apply (selected_bool g n pols p B H1 Hp) in S. assert (V' : vac = false) by (unfold vacuous in V; destruct vac; [congruence|reflexivity]). rewrite <- TW in T.
      rewrite <- (EM n pols r H1 Hp K1 K2) in K4.
      apply explained_issues in E' as [_ X]; auto. destruct (X T ing k r K1 K2 K3 K4) as (w & W). exists w. apply M. right. exists n, pols, p, li. do 4 (split; [assumption|]).
      apply policy_issues_spec in E as (_ & _ & E). apply E. right. right. right. do 3 (split; [assumption|]). exists ing, k, r, w. auto 8.
Qed.

(** ** C72: conflicting policies *)
Lemma pair_order : forall (l : list policy) p q, In p l -> In q l -> p <> q -> earlier p q l \/ earlier q p l.
Proof using.
  clear. intros l p q Hp Hq N. apply in_split in Hp as (l1 & l2 & ->). apply in_app_or in Hq as [Hq|[Hq|Hq]].
  - right. apply in_split in Hq as (a & b & ->). exists a, b, l2. rewrite <- app_assoc. reflexivity.
  - congruence.
  - left. apply in_split in Hq as (a & b & ->). exists l1, a, b. reflexivity.
Qed.
Lemma earlier_both : forall (l : list policy) p q, earlier q p l -> In q l /\ In p l.
Proof using.
  clear. intros l p q (l1 & l2 & l3 & ->). split; apply in_or_app; right; [left; reflexivity|right; apply in_or_app; right; left; reflexivity].
Qed.
Lemma listed_layer : forall (g : config) n p, inv (g_pols g) -> In p (policy_list g) -> of_layer n p = true ->
  exists pols, In (n, pols) (lays (g_pols g)) /\ In p pols /\ layer_list (g_pols g) n = pols.
Proof using.
  clear. intros g n p I Hp O. pose proof (inv_lists _ I n) as PM.
  assert (X : In p (layer_list (g_pols g) n)). { apply (Permutation_in p (Permutation_sym PM)). apply filter_In. split; [exact Hp|exact O]. }
  unfold layer_list in *. destruct (lget (lays (g_pols g)) n) as [pols|] eqn:E; [|destruct X]. exists pols. split; [apply (lget_In _ _ _ (inv_layers _ I)); exact E|]. auto.
Qed.
Lemma calico_layer : forall p : policy, is_calico p -> of_layer LK8sCalico p = true.
Proof using. clear. intros p H. unfold of_layer. destruct H as [->|[->| ->]]; reflexivity. Qed.
Lemma conflicting_odds : forall (g : config) pols p q, (forall p, In p (policy_list g) -> pok vis (p_selected p)) -> blocks_inhabited g -> inv (g_pols g) ->
  In (LK8sCalico, pols) (lays (g_pols g)) -> In p pols -> In q pols -> (is_conflicting p q = true <-> at_odds p q).
Proof using.
  clear R HV NE QK L QL NB RS RR A Q rid h6. intros g pols p q W B I Hl Hp Hq. rewrite conflicting_spec. unfold at_odds.
  assert (PK : pok vis (p_selected p)) by (apply W; apply (layer_policy g _ _ p I Hl Hp)).
  assert (QK' : pok vis (p_selected q)) by (apply W; apply (layer_policy g _ _ q I Hl Hq)).
  rewrite (pinter_bool vis _ _ PK QK').
  assert (EF : forall x ing a, In x pols -> (effective x ing a <-> exists r, In r (rules_in_dir x ing) /\ r_action r = a /\ pbool (r_src r) = true /\ pbool (r_dst r) = true)).
  { intros x ing a Hx. unfold effective. destruct (B _ _ x Hl Hx) as [_ BR].
    assert (BS : forall r, In r (rules_of x ing) -> (pbool (r_src r) = true <-> exists y, pt_in y (r_src r)) /\ (pbool (r_dst r) = true <-> exists y, pt_in y (r_dst r))).
    { intros r Hr. destruct (BR r) as [V1 V2]; [apply in_or_app; unfold rules_of in Hr; destruct ing; auto|]. split; apply bool_some; assumption. }
    split; intros (r & Hr & E & X1 & X2); exists r; destruct (BS r Hr) as [Y1 Y2]; rewrite ?Y1, ?Y2 in *; auto. }
  apply and_iff_compat_l. apply and_iff_compat_l. split.
  - intros (ing & a & b & r & s & H1 & H2 & H3 & Hr & Ea & S1 & S2 & Hs & Eb & S3 & S4). exists ing. split; [exact H1|]. split; [exact H2|]. rewrite !EF by assumption.
    destruct H3 as [[-> ->]|[-> ->]]; [left|right]; (split; [exists r|exists s]; auto).
  - intros (ing & H1 & H2 & H). rewrite !EF in H by assumption.
    destruct H as [[(r & Hr & Ea & S1 & S2) (s & Hs & Eb & S3 & S4)]|[(r & Hr & Ea & S1 & S2) (s & Hs & Eb & S3 & S4)]];
      [exists ing, Allow, Deny, r, s|exists ing, Deny, Allow, r, s]; auto 14.
Qed.
(** Two Calico policies at odds are reported, and only such; the later one is named first. *)
Theorem C72_conflict : forall g, plain g -> blocks_inhabited g ->
  (forall p q, sanity g = Some (Conflict p q) -> is_calico p /\ is_calico q /\ at_odds p q /\
     exists pols, In (LK8sCalico, pols) (lays (g_pols g)) /\ earlier q p pols) /\
  ((exists p q, sanity g = Some (Conflict p q)) <->
    exists p q, In p (policy_list g) /\ In q (policy_list g) /\ is_calico p /\ is_calico q /\ p <> q /\ at_odds p q).
Proof using.
  clear R HV NE QK L QL NB RS RR. intros g P B. pose proof P as (_ & LD & HG). pose proof (loaded_inv g LD) as I. destruct (conflict_exact g I) as [C1 C2].
  assert (W : forall p, In p (policy_list g) -> pok vis (p_selected p)) by (intros p Hp; destruct (HG p Hp) as [((_ & X) & _) _]; exact X).
  assert (CF : forall p q, sanity g = Some (Conflict p q) -> conflict g = Some (p, q)).
  { intros p q H. unfold SanityModel.sanity in H. destruct (negb (has_policies g)); [discriminate|]. destruct (conflict g) as [[p' q']|]; [injection H as -> ->; reflexivity|].
    cbv zeta in H. destruct (mapM _ _); discriminate. }
  assert (ONE : forall p q, sanity g = Some (Conflict p q) -> is_calico p /\ is_calico q /\ at_odds p q /\
     exists pols, In (LK8sCalico, pols) (lays (g_pols g)) /\ earlier q p pols).
  { intros p q H. apply CF in H. destruct (C1 p q H) as (pols & Hl & He & Kp & Kq & X). rewrite !calico_kind. split; [exact Kp|]. split; [exact Kq|].
    destruct (earlier_both _ _ _ He) as [Iq Ip]. split; [apply (conflicting_odds g pols p q W B I Hl Ip Iq); exact X|]. exists pols. auto. }
  split; [exact ONE|]. split.
  - intros (p & q & H). destruct (ONE p q H) as (Kp & Kq & O & pols & Hl & He). exists p, q. destruct (earlier_both _ _ _ He) as [Iq Ip].
    split; [apply (layer_policy g _ _ p I Hl Ip)|]. split; [apply (layer_policy g _ _ q I Hl Iq)|]. split; [exact Kp|]. split; [exact Kq|]. split; [|exact O].
    intros <-. pose proof (layer_NoDup g _ _ I Hl) as ND. destruct He as (l1 & l2 & l3 & E). rewrite E in ND. apply NoDup_remove_2 in ND. apply ND. apply in_or_app. right. apply in_or_app. right. left. reflexivity.
  - intros (p & q & Hp & Hq & Kp & Kq & N & O).
    assert (HP : has_policies g = true) by (unfold has_policies; unfold policy_list in Hp; destruct (policies (g_pols g)); [destruct Hp|reflexivity]).
    destruct (conflict g) as [[p' q']|] eqn:E.
    + exists p', q'. unfold SanityModel.sanity. rewrite HP, E. reflexivity.
    + exfalso. destruct (listed_layer g _ p I Hp (calico_layer p Kp)) as (pols & Hl & Ip & EL). destruct (listed_layer g _ q I Hq (calico_layer q Kq)) as (pols' & _ & Iq & EL'). subst pols'.
      rewrite EL in Iq. destruct (pair_order pols p q Ip Iq N) as [He|He].
      * pose proof (C2 eq_refl pols q p Hl He (proj1 (calico_kind q) Kq) (proj1 (calico_kind p) Kp)) as X.
        rewrite (proj2 (conflicting_odds g pols q p W B I Hl Iq Ip) (at_odds_sym _ _ O)) in X. discriminate.
      * pose proof (C2 eq_refl pols p q Hl He (proj1 (calico_kind p) Kp) (proj1 (calico_kind q) Kq)) as X.
        rewrite (proj2 (conflicting_odds g pols p q W B I Hl Ip Iq) O) in X. discriminate.
Qed.
(** What a layer of a configuration allows and denies, in terms of its policies. *)
Lemma layer_parts : forall g n f pt, good g -> space pt -> (f_allowed f = true -> f_all f = true) ->
  let r := layer_conns_of A g n f in
  (pt @ all_allowed r <-> f_all f = true /\ layer_allows (C := conns) from to a_tcp a_mem (g_peers g) n (layer_list (g_pols g) n) pt) /\
  (pt @ denied r <-> f_denied f = true /\ layer_denies (C := conns) a_mem (layer_list (g_pols g) n) pt) /\ q_ok dom std_rest (denied r).
Proof using R HV NE.
  clear rid h6 RS RR. intros g n f pt G Sp F. cbv zeta. pose proof (good_cfg reg vis R HV NE g G) as (HC & LO & _). pose proof (loaded_inv g (proj1 (proj2 G))) as I.
  assert (K : layer_ok A (q_ok dom std_rest) (a_safe std_rest) vis n true (layer_list (g_pols g) n) /\ layer_ok A (q_ok dom std_rest) (a_safe std_rest) vis n false (layer_list (g_pols g) n)).
  { unfold layer_list. destruct (lget (lays (g_pols g)) n) as [pols|] eqn:E.
    - apply LO. apply (lget_In _ _ _ (inv_layers _ I)). exact E.
    - split; (split; [intros p []|intros pre p post X; destruct pre; discriminate]). }
  destruct K as [K1 K2]. destruct (layer_conns_spec A (q_src reg) (q_dst reg) a_tcp (q_space dom) a_mem (q_ok dom std_rest) (a_safe std_rest) vis L (g_peers g) HC n _ f K1 K2 F) as (_ & _ & (_ & OK & _) & _ & M).
  destruct (M pt Sp) as (_ & M2 & M3).
  assert (E : layer_conns_of A g n f = layer_conns A n (g_peers g) (layer_list (g_pols g) n) f) by (unfold layer_conns_of, config_layer_conns, layer_list; destruct (lget (lays (g_pols g)) n); reflexivity).
  rewrite E. split; [exact M3|]. split; [exact M2|exact OK].
Qed.

(** Rules with connections have peers on both sides. *)
Definition sides_present (g : config) : Prop := forall p r pt, In p (policy_list g) -> In r (p_ingress p ++ p_egress p) -> space pt -> pt @ r_props r ->
  (exists x, pt_in x (r_src r)) /\ (exists x, pt_in x (r_dst r)).
(** No Calico policy has the order of the Kubernetes policies. *)
Definition orders_apart (g : config) : Prop := forall p q, In p (policy_list g) -> In q (policy_list g) -> p_kind p = TK8s -> is_calico q -> p_ord q <> Some 1000%Z.
Lemma before_both : forall a b, before a b -> before b a -> a = b.
Proof using. clear. intros [a|] [b|]; cbn; intros; try contradiction; try reflexivity. f_equal. lia. Qed.
Lemma before_same : forall a, before a a.
Proof using. clear. intros [a|]; cbn; lia || exact I. Qed.
Lemma sorted_after : forall (pre : list policy) p post q, by_order (pre ++ p :: post) -> In q (p :: post) -> before (get_order p) (get_order q).
Proof using.
  clear. intros pre p post q B [<-|Hq]; [apply before_same|]. induction pre as [|x pre IH]; cbn [app] in B; inversion B as [|? ? B1 B2]; subst.
  - rewrite Forall_forall in B2. apply B2. exact Hq.
  - apply IH. exact B1.
Qed.
Lemma first_permuted : forall (says : policy -> action -> Prop) l l' a, Permutation l l' -> by_order l -> by_order l' ->
  (forall p, In p l' -> (exists b, says p b) \/ forall b, ~ says p b) ->
  (forall p q a b, In p l -> In q l -> get_order p = get_order q -> says p a -> says q b -> a = b) ->
  first_says says l a -> first_says says l' a.
Proof using.
  clear. intros says l l' a PM B B' dec AG (pre & p & post & E & Sp & N).
  assert (Hp : In p l) by (rewrite E; apply in_or_app; right; left; reflexivity).
  destruct (silent_dec_iff says l' dec) as [[b F]|S]; [|exfalso; apply (S p a); [apply (Permutation_in p PM Hp)|exact Sp]].
  pose proof F as (pre' & q & post' & E' & Sq & N').
  assert (Hq : In q l) by (apply (Permutation_in q (Permutation_sym PM)); rewrite E'; apply in_or_app; right; left; reflexivity).
  assert (O : get_order p = get_order q).
  { apply before_both.
    - apply (sorted_after pre p post q); [rewrite <- E; exact B|]. rewrite E in Hq. apply in_app_or in Hq as [Hq|Hq]; [exfalso; apply (N q b Hq Sq)|exact Hq].
    - apply (sorted_after pre' q post' p); [rewrite <- E'; exact B'|]. apply (Permutation_in p PM) in Hp. rewrite E' in Hp.
      apply in_app_or in Hp as [Hp|Hp]; [exfalso; apply (N' p a Hp Sp)|exact Hp]. }
  rewrite (AG p q a b Hp Hq O Sp Sq). exact F.
Qed.
Lemma opinions_agree : forall g p q ing pt a b, plain g -> sides_present g -> space pt -> orders_apart g ->
  (forall p q, In p (policy_list g) -> In q (policy_list g) -> is_calico p -> is_calico q -> p <> q -> ~ at_odds p q) ->
  In p (policy_list g) -> In q (policy_list g) -> of_layer LK8sCalico p = true -> of_layer LK8sCalico q = true -> get_order p = get_order q ->
  captures_some p ing -> captures_some q ing -> opinion p ing pt a -> opinion q ing pt b -> a = b.
Proof using.
  clear R HV NE QK L QL NB RS RR A Q rid h6. intros g p q ing pt a b P SD Sp OA NO Hp Hq Lp Lq EO Cp Cq Op Oq. pose proof P as (_ & LD & HG).
  assert (KD : forall x, of_layer LK8sCalico x = true -> p_kind x = TK8s \/ is_calico x).
  { intros x Lx. unfold of_layer in Lx. unfold is_calico. destruct (p_kind x); cbn in Lx; try discriminate; tauto. }
  assert (CO : forall x, is_calico x -> get_order x = p_ord x) by (intros x Kx; unfold get_order; rewrite (proj1 (calico_kind x) Kx); reflexivity).
  assert (KO : forall x : policy, p_kind x = TK8s -> get_order x = Some 1000%Z) by (intros x Kx; unfold get_order; rewrite Kx; reflexivity).
  assert (EXP : forall x c, In x (policy_list g) -> is_calico x -> captures_some x ing -> opinion x ing pt c -> (c = Allow \/ c = Deny) /\ effective x ing c /\ affected x ing /\ pt_in (if ing then to pt else from pt) (p_selected x)).
  { intros x c Hx Kx Cx Ox. destruct (HG x Hx) as [(_ & CF & _) NP]. pose proof (opinion_selects dom reg (g_peers g) x ing pt c CF Sp Cx Ox) as S.
    assert (FM : first_match (rules_of x ing) pt c) by (unfold opinion in Ox; destruct Kx as [K|[K|K]]; rewrite K in Ox; exact Ox).
    destruct FM as (pre & r & post & E & Er & NL & M & _). assert (Hr : In r (rules_of x ing)) by (rewrite E; apply in_or_app; right; left; reflexivity).
    assert (Hr' : In r (p_ingress x ++ p_egress x)) by (apply in_or_app; unfold rules_of in Hr; destruct ing; auto).
    split; [|split; [|split]].
    - pose proof (NP Kx r Hr') as X. rewrite Er in X. destruct c; auto; congruence.
    - exists r. split; [exact Hr|]. split; [exact Er|]. apply (SD x r pt Hx Hr' Sp M).
    - destruct S as [_ S]. unfold affected. destruct Kx as [K|[K|K]]; rewrite K in S; destruct ing; exact S.
    - apply S. }
  destruct (KD p Lp) as [Kp|Kp], (KD q Lq) as [Kq|Kq].
  - unfold opinion in Op, Oq. rewrite Kp in Op. rewrite Kq in Oq. destruct Op as [-> _], Oq as [-> _]. reflexivity.
  - exfalso. apply (OA p q Hp Hq Kp Kq). rewrite <- (CO q Kq), <- EO. apply KO. exact Kp.
  - exfalso. apply (OA q p Hq Hp Kq Kp). rewrite <- (CO p Kp), EO. apply KO. exact Kq.
  - destruct (EXP p a Hp Kp Cp Op) as (Xa & Fa & Aa & Sa). destruct (EXP q b Hq Kq Cq Oq) as (Xb & Fb & Ab & Sb).
    assert (D : a = b \/ a <> b) by (destruct a, b; auto; right; discriminate). destruct D as [D|D]; [exact D|]. exfalso. apply (NO p q Hp Hq Kp Kq).
    + intros <-. apply D. apply (decides_fn a_mem ing pt p a b); apply decides_bridge; auto.
    + split; [rewrite <- (CO p Kp), <- (CO q Kq); exact EO|]. split; [exists (if ing then to pt else from pt); auto|]. exists ing. split; [exact Aa|]. split; [exact Ab|].
      destruct Xa as [-> | ->], Xb as [-> | ->]; try congruence; auto.
Qed.
(** If no two Calico policies are at odds, and no Calico policy has the order of the Kubernetes ones, then it does not
    matter in which order the policies are loaded: the Kubernetes/Calico layer allows the same connections. *)
Theorem C72_load_order : forall g g', plain g -> plain g' -> g_peers g' = g_peers g -> Permutation (policy_list g) (policy_list g') ->
  sides_present g -> orders_apart g ->
  (forall p q, In p (policy_list g) -> In q (policy_list g) -> is_calico p -> is_calico q -> p <> q -> ~ at_odds p q) ->
  forall pt, space pt -> (connects (Some LK8sCalico) g pt <-> connects (Some LK8sCalico) g' pt).
Proof using R HV NE.
  clear rid h6 RS RR. intros g g' P P' EP PM SD OA NO pt Sp. pose proof P as (_ & LD & HG). pose proof P' as (_ & LD' & HG').
  pose proof (loaded_inv g LD) as I. pose proof (loaded_inv g' LD') as I'.
  set (l := layer_list (g_pols g) LK8sCalico). set (l' := layer_list (g_pols g') LK8sCalico).
  assert (FP : forall (f : policy -> bool) (x y : list policy), Permutation x y -> Permutation (filter f x) (filter f y)).
  { intros f x y XY. induction XY as [|a x y _ IH|a b x|x y z _ IH1 _ IH2]; cbn [filter]; [constructor|destruct (f a); [constructor; exact IH|exact IH]| |eapply Permutation_trans; eauto].
    destruct (f a), (f b); try apply Permutation_refl. constructor. }
  assert (PL : Permutation l l').
  { eapply Permutation_trans; [apply (inv_lists _ I)|]. eapply Permutation_trans; [|apply Permutation_sym; apply (inv_lists _ I')]. apply FP. exact PM. }
  assert (IN : forall p, In p l -> In p (policy_list g) /\ of_layer LK8sCalico p = true).
  { intros p Hp. apply (Permutation_in p (inv_lists _ I LK8sCalico)) in Hp. apply filter_In in Hp. exact Hp. }
  assert (DEC : forall ing p, In p (policy_list g) -> (exists b, decides (C := conns) a_mem ing pt p b) \/ forall b, ~ decides (C := conns) a_mem ing pt p b).
  { intros ing p Hp. apply (decides_dec A _ _ _ _ _ _ _ _ L). destruct (HG p Hp) as [((W1 & W2) & _ & CC) _].
    assert (X : forall r, In r (p_ingress p ++ p_egress p) -> q_ok dom std_rest (r_props r)) by (intros r Hr; split; [exact (proj1 (W1 r Hr))|exact (CC r Hr)]).
    split; [|split; [|exact W2]]; intros r Hr; apply X; apply in_or_app; auto. }
  assert (AG : forall ing p q a b, In p l -> In q l -> get_order p = get_order q -> decides (C := conns) a_mem ing pt p a -> decides (C := conns) a_mem ing pt q b -> a = b).
  { intros ing p q a b Hp Hq E Da Db. apply decides_bridge in Da as [Ca Oa]. apply decides_bridge in Db as [Cb Ob].
    apply (opinions_agree g p q ing pt a b P SD Sp OA NO); auto; apply IN; assumption. }
  assert (VD : forall ing a, first_says (decides (C := conns) a_mem ing pt) l a <-> first_says (decides (C := conns) a_mem ing pt) l' a).
  { intros ing a. split.
    - apply first_permuted; [exact PL|apply (inv_order _ I)|apply (inv_order _ I')| |apply (AG ing)].
      intros p Hp. apply DEC. apply IN. apply (Permutation_in p (Permutation_sym PL)). exact Hp.
    - apply first_permuted; [apply Permutation_sym; exact PL|apply (inv_order _ I')|apply (inv_order _ I)| |].
      + intros p Hp. apply DEC. apply IN. exact Hp.
      + intros p q b c Hp Hq. apply AG; apply (Permutation_in _ (Permutation_sym PL)); assumption. }
  assert (CP : forall ing x, captured_by any_policy l ing x <-> captured_by any_policy l' ing x).
  { intros ing x. unfold captured_by. split; intros (p & Hp & H); exists p; (split; [|exact H]); [apply (Permutation_in p PL)|apply (Permutation_in p (Permutation_sym PL))]; exact Hp. }
  destruct (layer_parts g LK8sCalico only_all_allowed pt (plain_good _ _ _ P) Sp) as [M _]; [discriminate|].
  destruct (layer_parts g' LK8sCalico only_all_allowed pt (plain_good _ _ _ P') Sp) as [M' _]; [discriminate|].
  refine (iff_trans M (iff_trans _ (iff_sym M'))). apply and_iff_compat_l. fold l l'. rewrite EP.
  unfold layer_allows, layer_in, layer_out, dir_explicit, dir_default, k8s_explicit, k8s_default. cbv beta. rewrite !VD, !CP. reflexivity.
Qed.

(** The query ends without an exception if no two policies have the same full name and the Kubernetes/Calico layer holds
    policies of one kind. *)
Theorem C70_runs : forall g : config, loaded g ->
  (forall p q, In p (policy_list g) -> In q (policy_list g) -> full_name p = full_name q -> p = q) ->
  (forall p q, In p (policy_list g) -> In q (policy_list g) -> p_kind p = TK8s -> ~ is_calico q) ->
  (forall p, In p (policy_list g) -> (p_kind p = TIstioAP -> p_egress p = []) /\ (p_kind p = TSidecar -> p_ingress p = [])) ->
  exists r, sanity g = Some r.
Proof using.
  clear R HV NE QK L QL NB RS RR. intros g LD U NM OS. destruct (sanity g) as [r|] eqn:E; [exists r; reflexivity|]. exfalso.
  apply (sanity_runs A Q h6 rid g (loaded_inv g LD) U); auto. intros p q Hp Hq K. rewrite <- calico_kind. apply (NM p q Hp Hq K).
Qed.
(** The configuration allows what it allows without policies (gateways aside). *)
Definition vacuous (g : config) : Prop := let g' := without_gateways g in
  forall pt, space pt -> looks_at true g' g' pt -> (connects None g' pt <-> connects None (no_policies g) pt).
Lemma not_unique : forall g n p ing r, plain g -> In p (policy_list g) -> (p_kind p = TIstioAP -> ing = true) -> (p_kind p = TSidecar -> ing = false) ->
  In r (rules_of p ing) -> rule_redundant g n p ing r = false -> unique_rule p ing r.
Proof using R HV NE RR.
  clear RS. intros g n p ing r P Hp K1 K2 Hr H. pose proof P as (_ & _ & HG). destruct (HG p Hp) as [Gp NP].
  assert (C1 : class_of (p_kind p) <> CIstioAP \/ ing = true) by (destruct (p_kind p); cbn; auto; left; discriminate).
  assert (C2 : class_of (p_kind p) <> CSidecar \/ ing = false) by (destruct (p_kind p); cbn; auto; left; discriminate).
  assert (Rr : rule_eqb A rid (class_of (p_kind p)) r r = true).
  { apply (rule_eqb_refl reg vis R HV NE rid RR _ p _ r Gp). apply in_or_app. unfold rules_of in Hr. destruct ing; auto. }
  apply in_split in Hr as (pre & post & ER). exists pre, post. split; [exact ER|]. intros s Hs. fold dom. fold A. destruct (rule_eqb A rid (class_of (p_kind p)) s r) eqn:E; [|reflexivity]. exfalso.
  unfold QueryModel.rule_redundant in H. change (if ing then p_ingress p else p_egress p) with (rules_of p ing) in H.
  set (m := clone_without_rule p r ing) in H. change (if ing then p_ingress m else p_egress m) with (rules_of m ing) in H.
  assert (RL : rules_of m ing = filter (fun s => negb (rule_eqb A rid (class_of (p_kind p)) s r)) (rules_of p ing)).
  { unfold m, rules_of, QueryModel.clone_without_rule. destruct ing, (class_of (p_kind p)); cbn [p_ingress p_egress]; auto; exfalso; destruct C1, C2; congruence. }
  assert (LT : List.length (rules_of m ing) < List.length (rules_of p ing) - 1).
  { rewrite RL, ER, filter_app. cbn [filter]. rewrite Rr. cbn [negb]. rewrite <- filter_app.
    pose proof (filter_lt (fun s => negb (rule_eqb A rid (class_of (p_kind p)) s r)) (pre ++ post) s Hs) as F. cbv beta in F. rewrite E in F. specialize (F eq_refl).
    rewrite !app_length in *. cbn [List.length]. lia. }
  apply Nat.ltb_lt in LT. rewrite LT in H. discriminate.
Qed.
(** The query passes exactly if there are policies, no two of them are at odds, the configuration is not vacuous, and
    every policy (gateways aside) selects a peer, has no empty rule, matters, and has only rules that matter. *)
Theorem C70_passes : forall g, plain g -> has_pod g -> blocks_inhabited g -> answerable None (without_gateways g) -> ignores6 true g g ->
  (forall p, In p (policy_list g) -> (p_kind p = TIstioAP -> p_egress p = []) /\ (p_kind p = TSidecar -> p_ingress p = [])) ->
  (forall p ing r, In p (policy_list g) -> In r (rules_of p ing) -> h6 (clone_without_rule p r ing) = true -> h6 p = true) ->
  ((exists r, sanity g = Some r /\ a_bool (sanity_answer r) = true) <->
   policy_list g <> [] /\
   (forall p q, In p (policy_list g) -> In q (policy_list g) -> is_calico p -> is_calico q -> p <> q -> ~ at_odds p q) /\
   ~ vacuous g /\
   forall n pols p, queried g n pols -> In p pols ->
     ~ selects_none p /\
     (forall ing r, considered p ing -> In r (rules_of p ing) -> ~ empty_rule p r) /\
     (1 < List.length pols -> ~ same_layer n g (without_policy g p)) /\
     forall ing r, In r (rules_of p ing) -> unique_rule p ing r /\ ~ same_layer n g (replaced g p (clone_without_rule p r ing))).
Proof using R HV NE RS RR.
  intros g P HP B AN IG OS H6. pose proof P as (_ & LD & HG). pose proof (loaded_inv g LD) as I.
  assert (IG' : ignores6 true (without_gateways g) (without_gateways g)).
  { destruct IG as (F & I1 & _). assert (X : forall p, In p (policy_list (without_gateways g)) -> h6 p = false).
    { intros p Hp. apply I1. unfold without_gateways in Hp. destruct (_ || _); [|exact Hp]. apply clone_list in Hp. apply filter_In in Hp. apply Hp. }
    split; [exact F|]. split; exact X. }
  destruct (C34_vacuity reg vis R HV NE rid h6 RS g P AN) as (V1 & V2 & _).
  assert (VV : a_bool (vacuity g) = true <-> vacuous g) by (split; [exact V1|exact (V2 IG')]). clear V1 V2.
  destruct (C72_conflict g P B) as [CF1 CF2].
  assert (LP : forall n pols p, queried g n pols -> In p pols -> In p (policy_list g)) by (intros n pols p (Hl & _) Hp; apply (layer_policy g n pols p I Hl Hp)).
  assert (RP : forall n p, In p (policy_list g) -> (redundant g n p = true <-> same_layer n g (without_policy g p))).
  { intros n p Hp. destruct (C33_redundant_policy reg vis R HV NE rid h6 RS RR g n p P HP Hp) as (_ & _ & T1 & T2). split; [exact T1|exact (T2 IG)]. }
  assert (DIR : forall p ing r, In p (policy_list g) -> In r (rules_of p ing) -> (p_kind p = TIstioAP -> ing = true) /\ (p_kind p = TSidecar -> ing = false)).
  { intros p ing r Hp Hr. destruct (OS p Hp) as [O1 O2]. split; intros K; destruct ing; auto; unfold rules_of in Hr; exfalso; [rewrite (O1 K) in Hr|rewrite (O2 K) in Hr]; destruct Hr. }
  assert (RU : forall n p ing r, In p (policy_list g) -> In r (rules_of p ing) ->
    (rule_redundant g n p ing r = false <-> unique_rule p ing r /\ ~ same_layer n g (replaced g p (clone_without_rule p r ing)))).
  { intros n p ing r Hp Hr. destruct (DIR p ing r Hp Hr) as [D1 D2]. split.
    - intros E. pose proof (not_unique g n p ing r P Hp D1 D2 Hr E) as U. split; [exact U|]. intros SL.
      destruct (C33_redundant_rule reg vis R HV NE rid h6 RS RR g n p ing r P HP Hp D1 D2 U (H6 p ing r Hp Hr)) as (_ & _ & T2).
      pose proof (T2 IG SL) as T. fold dom in T. fold A Q in T. congruence.
    - intros [U NS]. destruct (rule_redundant g n p ing r) eqn:E; [|reflexivity]. exfalso. apply NS.
      destruct (C33_redundant_rule reg vis R HV NE rid h6 RS RR g n p ing r P HP Hp D1 D2 U (H6 p ing r Hp Hr)) as (_ & T1 & _). apply T1. exact E. }
  split.
  - intros (r & ES & PASS). destruct r as [|p q|l]; [discriminate|discriminate|]. cbn [sanity_answer a_bool] in PASS. apply Nat.eqb_eq in PASS.
    destruct l as [|i l]; [|discriminate]. destruct (C70_issues g [] LD B ES) as (N0 & _ & JV & JP & JR & JRP & JRR). cbv zeta in *.
    assert (NV : a_bool (vacuity g) <> true) by (intros V; apply JV in V; destruct V).
    split; [exact N0|]. split; [|split; [rewrite <- VV; exact NV|]].
    + intros p q Hp Hq Kp Kq N O. assert (X : exists p q, sanity g = Some (Conflict p q)) by (apply CF2; exists p, q; auto 8). destruct X as (p' & q' & X). congruence.
    + intros n pols p Hq Hp. pose proof (LP n pols p Hq Hp) as Hpl.
      assert (SN : ~ selects_none p) by (intros S; destruct (proj2 (JP p)); split; [exists n, pols; auto|exact S]).
      assert (NE1 : forall ing r, considered p ing -> In r (rules_of p ing) -> ~ empty_rule p r).
      { intros ing r CO Hr EM. apply In_nth_error in Hr as (j & Hj). destruct EM as [EM|EM].
        - destruct (proj2 (JR p ing (1 + j) true)). split; [exists n, pols; auto|]. split; [exact SN|]. split; [exact CO|]. split; [lia|]. exists r. replace (1 + j - 1) with j by lia. split; [exact Hj|exact EM].
        - destruct (proj2 (JR p ing (1 + j) false)). split; [exists n, pols; auto|]. split; [exact SN|]. split; [exact CO|]. split; [lia|]. exists r. replace (1 + j - 1) with j by lia. split; [exact Hj|exact EM]. }
      assert (NR : ~ (1 < List.length pols /\ exists q, In q pols /\ full_name q = full_name p /\ redundant g n q = true)).
      { intros T. destruct (proj2 (JRP p)) as (w & []). exists n, pols. auto. }
      split; [exact SN|]. split; [exact NE1|]. split.
      * intros LN SL. apply NR. split; [exact LN|]. exists p. split; [exact Hp|]. split; [reflexivity|]. apply RP; assumption.
      * intros ing r Hr. apply RU; [exact Hpl|exact Hr|]. destruct (rule_redundant g n p ing r) eqn:E; [|reflexivity]. exfalso.
        pose proof Hr as Hr'. apply In_nth_error in Hr' as (j & Hj).
        destruct (proj2 (JRR p ing (1 + j))) as (w & []). exists n, pols. do 5 (split; [assumption|]). split; [lia|]. exists r. replace (1 + j - 1) with j by lia.
        split; [exact Hj|]. split; [exact E|]. intros [CO EM]. apply (NE1 ing r CO Hr EM).
  - intros (N0 & NO & NV & ALL). exists (Issues []). split; [|reflexivity]. rewrite <- VV in NV.
    apply sanity_clean.
    + unfold has_policies. unfold policy_list in N0. destruct (policies (g_pols g)); [exfalso; apply N0; reflexivity|reflexivity].
    + destruct (conflict g) as [[p q]|] eqn:E; [|reflexivity]. exfalso.
      assert (HP' : has_policies g = true) by (unfold has_policies; unfold policy_list in N0; destruct (policies (g_pols g)); [exfalso; apply N0; reflexivity|reflexivity]).
      assert (X : exists p q, sanity g = Some (Conflict p q)) by (exists p, q; unfold SanityModel.sanity; rewrite HP', E; reflexivity).
      apply CF2 in X as (p' & q' & Hp & Hq & Kp & Kq & N & O). apply (NO p' q' Hp Hq Kp Kq N O).
    + destruct (a_bool (vacuity g)); [exfalso; apply NV; reflexivity|reflexivity].
    + intros n pols p Hl G Hp. assert (Hq : queried g n pols) by (split; [exact Hl|apply gateway_layers; exact G]).
      destruct (ALL n pols p Hq Hp) as (SN & NE1 & NR & UR). pose proof (LP n pols p Hq Hp) as Hpl.
      unfold policy_issues. rewrite (proj2 (proj2 (selected_bool g n pols p B Hl Hp)) SN). cbn [negb].
      assert (EE : empty_issues p = []).
      { destruct (empty_issues p) as [|i t] eqn:E; [reflexivity|]. exfalso. assert (X : In i (empty_issues p)) by (rewrite E; left; reflexivity).
        apply empty_issues_spec in X as (ing & k & r & b & _ & LA & _ & K2 & S). apply nth_error_In in K2. apply (NE1 ing r (proj1 (considered_class p ing) LA) K2).
        destruct (sides_bool g n pols p r ing B Hl Hp K2) as [S1 S2]. destruct b; [left; apply S1; exact S|right; split; [apply calico_kind; apply S|apply S2; apply S]]. }
      rewrite EE.
      assert (NN : existsb (String.eqb (full_name p)) (redundant_policies A Q h6 rid g pols n) = false).
      { apply not_true_iff_false. intros X. apply named_in_spec in X. unfold named_in in X. apply names_spec in X as (LN & q & Hq' & _ & Rq).
        destruct (ALL n pols q Hq Hq') as (_ & _ & NRq & _). apply (NRq LN). apply RP; [apply (LP n pols q Hq Hq')|exact Rq]. }
      rewrite NN.
      assert (RI : forall ing, rule_issues A Q h6 rid g n p ing pols = Some []).
      { intros ing. unfold rule_issues. assert (E : redundant_rules A Q h6 rid g n p ing = []).
        { destruct (redundant_rules A Q h6 rid g n p ing) as [|k t] eqn:E; [reflexivity|]. exfalso. assert (X : In k (redundant_rules A Q h6 rid g n p ing)) by (rewrite E; left; reflexivity).
          unfold redundant_rules in X. apply indices_spec in X as (j & r & _ & Hj & Rr). change (if ing then p_ingress p else p_egress p) with (rules_of p ing) in Hj.
          apply nth_error_In in Hj. pose proof (proj2 (RU n p ing r Hpl Hj) (UR ing r Hj)). congruence. }
        rewrite E. reflexivity. }
      rewrite !RI. reflexivity.
Qed.

(** ** C71: explanations *)
Lemma subset_incl : forall s t : peerset, ps_subset s t = true <-> incl s t.
Proof using. clear. intros s t. unfold ps_subset, incl. rewrite forallb_forall. split; intros H x Hx; apply pmem_In; apply H; exact Hx. Qed.
Lemma incl_points : forall s t : peerset, incl s t -> forall x, pt_in x s -> pt_in x t.
Proof using. clear. intros s t I [k n|y]; cbn [pt_in]; [apply I|intros (l & H1 & H2); exists l; auto]. Qed.
Lemma ends_stops : forall p q : policy, ends_search p q = true <-> stops_at p q.
Proof using.
  clear. intros p q. unfold ends_search, stops_at. destruct (get_order q) as [j|], (get_order p) as [i|]; try (split; [discriminate|intros (a & b & E1 & E2 & _); discriminate]).
  rewrite !andb_true_iff, !negb_true_iff, !Z.eqb_neq, Z.ltb_lt. split.
  - intros ((H1 & H2) & H3). exists i, j. auto.
  - intros (a & b & E1 & E2 & H1 & H2 & H3). injection E1 as <-. injection E2 as <-. auto.
Qed.
(** The search through the rules of one policy. *)
Lemma rule_scan_found : forall (q p : policy) r i rs k j c, rule_scan A rid q p r i k rs = Some (Some (j, c)) ->
  exists s m, j = k + m /\ nth_error rs m = Some s /\ c_cont A (r_props r) (r_props s) = true /\
    (class_of (p_kind q) = CCalico -> policy_eqb A rid q p = true -> k <= i -> j < i) /\ (policy_eqb A rid q p = true -> j <> i) /\
    (class_of (p_kind q) = CCalico -> c = negb (action_eqb (r_action s) (r_action r))) /\
    (class_of (p_kind q) = CIstioAP -> c = negb (action_eqb (p_action q) (p_action p))).
Proof using.
  clear. intros q p r i. induction rs as [|s rs IH]; intros k j c H; [discriminate|]. cbn [rule_scan] in H.
  assert (NEXT : rule_scan A rid q p r i (S k) rs = Some (Some (j, c)) -> (class_of (p_kind q) = CCalico -> policy_eqb A rid q p = true -> k <> i) -> exists s0 m, j = k + m /\ nth_error (s :: rs) m = Some s0 /\ c_cont A (r_props r) (r_props s0) = true /\
    (class_of (p_kind q) = CCalico -> policy_eqb A rid q p = true -> k <= i -> j < i) /\ (policy_eqb A rid q p = true -> j <> i) /\
    (class_of (p_kind q) = CCalico -> c = negb (action_eqb (r_action s0) (r_action r))) /\
    (class_of (p_kind q) = CIstioAP -> c = negb (action_eqb (p_action q) (p_action p)))).
  { intros N KI. apply IH in N as (t & m & E1 & E2 & E3 & E4 & E5 & E6). exists t, (S m). split; [lia|]. split; [exact E2|]. split; [exact E3|].
    split; [intros X Y Z; specialize (KI X Y); apply E4; auto; lia|]. split; [exact E5|exact E6]. }
  destruct (k =? i) eqn:Ei; cbn [andb] in H.
  - apply Nat.eqb_eq in Ei. subst k. destruct (policy_eqb A rid q p) eqn:Eq.
    + destruct (class_of (p_kind q)) eqn:Ec; try discriminate; apply NEXT; auto; discriminate.
    + destruct (c_cont A (r_props r) (r_props s)) eqn:Cc.
      * assert (X : j = i /\ (class_of (p_kind q) = CCalico -> c = negb (action_eqb (r_action s) (r_action r))) /\ (class_of (p_kind q) = CIstioAP -> c = negb (action_eqb (p_action q) (p_action p)))).
        { destruct (class_of (p_kind p)), (class_of (p_kind q)); try discriminate; injection H as <- <-; (split; [reflexivity|]); split; intros X; try discriminate; reflexivity. }
        destruct X as (-> & X). exists s, 0. split; [lia|]. split; [reflexivity|]. split; [exact Cc|]. split; [intros _ X'; discriminate|]. split; [intros X'; discriminate|exact X].
      * apply NEXT; [destruct (class_of (p_kind p)); try discriminate; exact H|intros _ X; discriminate].
  - apply Nat.eqb_neq in Ei. destruct (c_cont A (r_props r) (r_props s)) eqn:Cc.
    + assert (X : j = k /\ (class_of (p_kind q) = CCalico -> c = negb (action_eqb (r_action s) (r_action r))) /\ (class_of (p_kind q) = CIstioAP -> c = negb (action_eqb (p_action q) (p_action p)))).
      { destruct (class_of (p_kind p)), (class_of (p_kind q)); try discriminate; injection H as <- <-; (split; [reflexivity|]); split; intros X; try discriminate; reflexivity. }
      destruct X as (-> & X). exists s, 0. split; [lia|]. split; [reflexivity|]. split; [exact Cc|]. split; [intros _ _ Z; lia|]. split; [intros _; exact Ei|exact X].
    + apply NEXT; [destruct (class_of (p_kind p)); try discriminate; exact H|intros _ _; exact Ei].
Qed.
Lemma rule_scan_missed : forall (q p : policy) r i rs k, rule_scan A rid q p r i k rs = Some None -> forall m s, nth_error rs m = Some s ->
  (policy_eqb A rid q p = true -> k + m <> i /\ (class_of (p_kind q) = CCalico -> k <= i -> k + m < i)) -> k <= i \/ policy_eqb A rid q p = false \/ class_of (p_kind q) <> CCalico ->
  c_cont A (r_props r) (r_props s) = false.
Proof using.
  clear. intros q p r i. induction rs as [|t rs IH]; intros k H m s Hs Hm Hk; [destruct m; discriminate|]. cbn [rule_scan] in H.
  destruct ((k =? i) && policy_eqb A rid q p) eqn:E.
  - apply andb_true_iff in E as [E1 E2]. apply Nat.eqb_eq in E1. subst k. destruct (Hm E2) as [M1 M2]. destruct m as [|m]; [exfalso; lia|].
    assert (NC : class_of (p_kind q) <> CCalico) by (intros X; specialize (M2 X (le_n _)); lia).
    destruct (class_of (p_kind q)) eqn:Ec; try congruence; (apply (IH (S i) H m s Hs); [intros _; split; [lia|discriminate]|right; right; discriminate]).
  - assert (C : class_of (p_kind p) <> CSidecar) by (intros X; rewrite X in H; discriminate).
    destruct (c_cont A (r_props r) (r_props t)) eqn:Cc; [destruct (class_of (p_kind p)), (class_of (p_kind q)); discriminate|].
    assert (H' : rule_scan A rid q p r i (S k) rs = Some None) by (destruct (class_of (p_kind p)); try congruence).
    destruct m as [|m]; [injection Hs as <-; exact Cc|]. apply (IH (S k) H' m s Hs).
    + intros X. destruct (Hm X) as [M1 M2]. split; [lia|]. intros Y Z. specialize (M2 Y). lia.
    + apply andb_false_iff in E. destruct Hk as [Hk|[Hk|Hk]]; [|right; left; exact Hk|right; right; exact Hk]. destruct E as [E|E]; [|right; left; exact E].
      apply Nat.eqb_neq in E. left. lia.
Qed.
(** A redundant rule said to be contained in another one is: each of its connections is one of that rule of that policy;
    what is said about the actions is right if both policies are of the same kind. *)
Theorem C71_rule : forall g l p ing k q j c, plain g -> sanity g = Some (Issues l) -> In (RedundantRule p ing k (Some (q, j, c))) l ->
  exists n pols r s, queried g n pols /\ In p pols /\ In q pols /\ 1 <= k /\ 1 <= j /\
    nth_error (rules_of p ing) (k - 1) = Some r /\ nth_error (rules_of q ing) (j - 1) = Some s /\
    (forall pt, space pt -> pt @ r_props r -> pt @ r_props s) /\
    (~ is_calico q -> forall x, pt_in x (p_selected p) -> pt_in x (p_selected q)) /\
    (q = p -> j <> k /\ (is_calico p -> j < k)) /\
    (is_calico q -> (c = true <-> r_action s <> r_action r)) /\ (p_kind q = TIstioAP -> (c = true <-> p_action q <> p_action p)).
Proof using R HV NE RR.
  clear RS. intros g l p ing k q j c P H Hi. pose proof P as (_ & LD & HG). pose proof (loaded_inv g LD) as I.
  destruct (sanity_issues A Q h6 rid g l I H) as (_ & _ & _ & M). apply M in Hi as [[X _]|(n & pols & p' & li & H1 & H2 & H3 & E & Hi)]; [discriminate|].
  apply policy_issues_spec in E as (_ & _ & E). apply E in Hi as [[X _]|[[_ X]|[(_ & _ & _ & w & X & _)|(_ & _ & _ & ing' & k' & r & w & X & K1 & K2 & _ & _ & K5)]]]; try discriminate.
  { apply empty_issues_spec in X as (ing' & k' & r & b & X & _). discriminate. }
  injection X as <- <- <- <-.
  assert (F : exists ps, incl ps pols /\ In q ps /\ rule_containing A rid q p r k (rules_in_dir q ing) = Some (Some (j, c))).
  { exists pols. split; [apply incl_refl|]. clear - K5. induction pols as [|x ps IH]; [discriminate|]. cbn [other_rule] in K5. destruct (ends_search p x); [discriminate|].
    destruct (rule_containing A rid x p r k (rules_in_dir x ing)) as [[[m d]|]|] eqn:E; [|destruct (IH K5) as [A1 A2]; split; [right; exact A1|exact A2]|discriminate].
    injection K5 as <- <- <-. split; [left; reflexivity|exact E]. }
  destruct F as (ps & Ip & Iq & F). apply Ip in Iq. clear ps Ip.
  destruct (layer_policy g n pols p I H1 H3) as [Gp _]. destruct (layer_policy g n pols q I H1 Iq) as [Gq _].
  assert (SC : rule_scan A rid q p r k 1 (rules_in_dir q ing) = Some (Some (j, c)) /\ (class_of (p_kind q) <> CCalico -> incl (p_selected p) (p_selected q))).
  { unfold rule_containing in F. rewrite <- subset_incl. destruct (class_of (p_kind q)); try discriminate; [|split; [exact F|intros X; congruence]|];
      (destruct (ps_subset (p_selected p) (p_selected q)); [split; [exact F|reflexivity]|discriminate]). }
  destruct SC as [SC SI]. apply rule_scan_found in SC as (s & m & Ej & Es & Cc & S1 & S2 & S3 & S4).
  assert (SE : q = p -> policy_eqb A rid q p = true) by (intros ->; destruct (HG p Gp) as [Wp NPp]; apply (policy_eqb_self reg vis R HV NE rid RR _ p Wp NPp)).
  assert (AE : forall a b, negb (action_eqb a b) = true <-> a <> b) by (intros [] []; cbn; split; congruence).
  exists n, pols, r, s. split; [split; [exact H1|apply gateway_layers; exact H2]|]. split; [exact H3|]. split; [exact Iq|]. split; [exact K1|]. split; [lia|].
  split; [exact K2|]. split; [replace (j - 1) with m by lia; exact Es|]. split; [|split; [|split; [|split]]].
  - assert (OKR : forall x t ing, In x (policy_list g) -> In t (rules_of x ing) -> q_ok dom std_rest (r_props t)).
    { intros x t dir Hx Ht. destruct (HG x Hx) as [((W & _) & _ & CC) _]. assert (Ht' : In t (p_ingress x ++ p_egress x)) by (apply in_or_app; unfold rules_of in Ht; destruct dir; auto).
      split; [exact (proj1 (W t Ht'))|exact (CC t Ht')]. }
    apply (l_cont _ _ _ _ _ _ _ _ _ L); [apply (OKR p r ing Gp (nth_error_In _ _ K2))|apply (OKR q s ing Gq (nth_error_In _ _ Es))|exact Cc].
  - intros NC. apply incl_points. apply SI. rewrite <- calico_kind. exact NC.
  - intros EQ. split; [apply S2; apply SE; exact EQ|]. intros Kp. apply S1; [rewrite <- calico_kind; rewrite EQ; exact Kp|apply SE; exact EQ|exact K1].
  - intros Kq. rewrite (S3 (proj1 (calico_kind q) Kq)). apply AE.
  - intros Kq. rewrite S4 by (rewrite Kq; reflexivity). apply AE.
Qed.
(** If a redundant rule is reported without an explanation, then no rule contains it, of the policies up to the first one
    where the search stops. *)
Theorem C71_rule_unexplained : forall g l p ing k, plain g -> distinct_policies reg vis rid g -> sanity g = Some (Issues l) -> In (RedundantRule p ing k None) l ->
  exists n pols r, queried g n pols /\ In p pols /\ 1 <= k /\ nth_error (rules_of p ing) (k - 1) = Some r /\
    forall pre q post j s, pols = pre ++ q :: post -> (forall x, In x (pre ++ [q]) -> ~ stops_at p x) ->
      p_kind q <> TSidecar -> (~ is_calico q -> incl (p_selected p) (p_selected q)) ->
      1 <= j -> nth_error (rules_of q ing) (j - 1) = Some s -> (q = p -> j <> k /\ (is_calico p -> j < k)) ->
      ~ (forall pt, space pt -> pt @ r_props r -> pt @ r_props s).
Proof using R HV NE RR.
  clear RS. intros g l p ing k P DP H Hi. pose proof P as (_ & LD & HG). pose proof (loaded_inv g LD) as I.
  destruct (sanity_issues A Q h6 rid g l I H) as (_ & _ & _ & M). apply M in Hi as [[X _]|(n & pols & p' & li & H1 & H2 & H3 & E & Hi)]; [discriminate|].
  apply policy_issues_spec in E as (_ & _ & E). apply E in Hi as [[X _]|[[_ X]|[(_ & _ & _ & w & X & _)|(_ & _ & _ & ing' & k' & r & w & X & K1 & K2 & _ & _ & K5)]]]; try discriminate.
  { apply empty_issues_spec in X as (ing' & k' & r & b & X & _). discriminate. }
  injection X as <- <- <- <-.
  exists n, pols, r. split; [split; [exact H1|apply gateway_layers; exact H2]|]. split; [exact H3|]. split; [exact K1|]. split; [exact K2|].
  intros pre q post j s EP NS KS SI J1 J2 JK. destruct (layer_policy g n pols p I H1 H3) as [Gp _].
  assert (Iq : In q pols) by (rewrite EP; apply in_or_app; right; left; reflexivity). destruct (layer_policy g n pols q I H1 Iq) as [Gq Lq].
  assert (RC : rule_containing A rid q p r k (rules_in_dir q ing) = Some None).
  { rewrite EP in K5. clear - K5 NS. induction pre as [|x pre IH]; cbn [app other_rule] in K5.
    - destruct (ends_search p q) eqn:E; [exfalso; apply (NS q); [left; reflexivity|apply ends_stops; exact E]|].
      destruct (rule_containing A rid q p r k (rules_in_dir q ing)) as [[[m d]|]|]; [discriminate|reflexivity|discriminate].
    - destruct (ends_search p x) eqn:E; [exfalso; apply (NS x); [left; reflexivity|apply ends_stops; exact E]|].
      destruct (rule_containing A rid x p r k (rules_in_dir x ing)) as [[[m d]|]|]; [discriminate| |discriminate]. apply IH; [exact K5|]. intros y Hy. apply NS. right. exact Hy. }
  assert (SC : rule_scan A rid q p r k 1 (rules_in_dir q ing) = Some None).
  { unfold rule_containing in RC. rewrite calico_kind in SI. rewrite <- subset_incl in SI. destruct (p_kind q) eqn:Kq; cbn [class_of] in *; try (exfalso; unfold of_layer in Lq; rewrite Kq in Lq; destruct n; discriminate);
      try exact RC; try congruence; try (rewrite SI in RC by discriminate; exact RC); exfalso; unfold of_layer in Lq; rewrite Kq in Lq; destruct n; discriminate. }
  assert (CF : c_cont A (r_props r) (r_props s) = false).
  { apply (rule_scan_missed q p r k _ 1 SC (j - 1) s J2); [|left; exact K1]. intros EQ. assert (q = p) by (apply (DP q p Gq Gp); exact EQ). destruct (JK H0) as [A1 A2].
    split; [lia|]. intros Kq _. assert (X : j < k); [|lia]. apply A2. rewrite <- H0. apply calico_kind. exact Kq. }
  assert (OKR : forall x t ing, In x (policy_list g) -> In t (rules_of x ing) -> q_ok dom std_rest (r_props t)).
  { intros x t dir Hx Ht. destruct (HG x Hx) as [((W & _) & _ & CC) _]. assert (Ht' : In t (p_ingress x ++ p_egress x)) by (apply in_or_app; unfold rules_of in Ht; destruct dir; auto).
    split; [exact (proj1 (W t Ht'))|exact (CC t Ht')]. }
  pose proof (OKR p r ing Gp (nth_error_In _ _ K2)) as OR. pose proof (OKR q s ing Gq (nth_error_In _ _ J2)) as OS.
  intros X. apply (l_cont _ _ _ _ _ _ _ _ _ L) in X; [exact (eq_true_false_abs _ X CF)|exact OR|exact OS].
Qed.

(** Policies on their own. *)
Lemma lone : forall (g : config) n (p : policy), of_layer n p = true -> lays (g_pols (with_policies g [p])) = [(n, [p])] /\ policy_list (with_policies g [p]) = [p].
Proof using.
  clear. intros g n p H. unfold of_layer in H. unfold with_policies, policy_list. cbn [g_pols add_all fold_left]. unfold append_policy, pcont_init, pfind. cbn [policies lays find].
  destruct (layer_of_type (p_kind p)) as [m|] eqn:E; [|discriminate]. apply lname_eqb_eq in H. subst m.
  destruct (p_kind p); cbn in E; try discriminate; injection E as <-; split; reflexivity.
Qed.
Lemma lone_gateways : forall (g : config) n (p : policy), of_layer n p = true -> is_gateway_layer n = false -> without_gateways (with_policies g [p]) = with_policies g [p].
Proof using.
  clear. intros g n p H N. destruct (lone g n p H) as [E _]. unfold without_gateways, nonempty_layer. rewrite E. destruct n; try discriminate; reflexivity.
Qed.
Lemma just_one_self : forall (g : config) p g1, inv (g_pols g) -> In p (policy_list g) -> just_one g (full_name p) = Some g1 -> g1 = with_policies g [p].
Proof using.
  clear. intros g p g1 I Hp H. unfold just_one, find_policy in H.
  set (res := flat_map _ all_types) in H.
  assert (X : In p res).
  { unfold res. apply in_flat_map. exists (p_kind p). split; [destruct (p_kind p); cbn; auto 14|]. rewrite (pfind_key g p I Hp). left. reflexivity. }
  destruct res as [|a [|b l]]; [destruct X| |discriminate]. injection H as <-. destruct X as [->|[]]. reflexivity.
Qed.
Lemma allow_rules_spec : forall (g : config) n pols p, blocks_inhabited g -> In (n, pols) (lays (g_pols g)) -> In p pols ->
  (has_allow_rules p = true <-> allowing p) /\ (has_deny_rules p = true <-> denying p).
Proof using.
  clear. intros g n pols p B H1 H2. destruct (B n pols p H1 H2) as [_ BR].
  assert (BS : forall ing r, In r (rules_of p ing) -> (pbool (r_src r) = true <-> exists y, pt_in y (r_src r)) /\ (pbool (r_dst r) = true <-> exists y, pt_in y (r_dst r))).
  { intros ing r Hr. destruct (BR r) as [V1 V2]; [apply in_or_app; unfold rules_of in Hr; destruct ing; auto|]. split; apply bool_some; assumption. }
  assert (SP : forall ing, some_peers (rules_of p ing) = true <-> has_sources (rules_of p ing)).
  { intros ing. unfold some_peers, has_sources. rewrite existsb_exists. split.
    - intros (r & Hr & E). apply (BS ing r Hr) in E as [x Hx]. exists r, x. auto.
    - intros (r & x & Hr & Hx). exists r. split; [exact Hr|]. apply (BS ing r Hr). exists x. exact Hx. }
  assert (HA : forall ing a, has_action (rules_of p ing) a = true <-> effective p ing a).
  { intros ing a. rewrite has_action_spec. unfold effective. split; intros (r & Hr & E & X1 & X2); exists r; destruct (BS ing r Hr) as [Y1 Y2]; rewrite ?Y1, ?Y2 in *; auto. }
  assert (EX : forall P : bool -> Prop, (exists b, P b) <-> P true \/ P false) by (intros P; split; [intros [[] H]; auto|intros [H|H]; eexists; exact H]).
  assert (AE : forall a b, negb (action_eqb a b) = true <-> a <> b) by (intros [] []; cbn; split; congruence).
  assert (S1 := SP true). assert (S2 := SP false). cbn [rules_of] in S1, S2.
  pose proof (HA true) as A1. pose proof (HA false) as A2. cbn [rules_of] in A1, A2. clear SP HA BS BR B H1 H2.
  unfold has_allow_rules, has_deny_rules, allowing, denying.
  split; destruct (p_kind p); cbn [class_of]; rewrite ?EX, ?andb_true_iff, ?orb_true_iff, ?AE; cbn [rules_of]; rewrite ?A1, ?A2, ?S1, ?S2; try tauto; split; (discriminate || contradiction).
Qed.
(** The connections a policy denies on its own. *)
Definition denies (p : policy) (pt : conn) : Prop := exists ing, captures_some p ing /\ opinion p ing pt Deny.
Lemma lone_denies : forall (p : policy) pt, layer_denies (C := conns) a_mem [p] pt <-> denies p pt.
Proof using.
  clear. intros p pt. unfold layer_denies, denies.
  assert (X : forall ing, first_says (decides (C := conns) a_mem ing pt) [p] Deny <-> captures_some p ing /\ opinion p ing pt Deny).
  { intros ing. rewrite <- decides_bridge. split.
    - intros (pre & q & post & E & D & _). destruct pre as [|x [|y pre]]; try discriminate. injection E as <- _. exact D.
    - intros D. exists [], p, []. split; [reflexivity|]. split; [exact D|]. intros q b []. }
  rewrite !X. split; [intros [H|H]; [exists true|exists false]; exact H|intros [[] H]; auto].
Qed.
(** What the policy allows explicitly, [q] allows: as seen if each were the only policy. *)
Definition allows_contained (g : config) (p q : policy) : Prop :=
  incl (p_selected p) (p_selected q) /\
  forall pt, space pt -> looks_at true (with_policies g [p]) (with_policies g [q]) pt -> captures (with_policies g [p]) pt -> connects None (with_policies g [q]) pt.
Definition denies_contained (p q : policy) : Prop := denying q /\ forall pt, space pt -> denies p pt -> denies q pt.
(** What is said about a redundant policy is true. *)
Theorem C71_policy : forall g l p w, plain g -> blocks_inhabited g -> ~ has_hep (g_peers g) -> distinct_policies reg vis rid g ->
  sanity g = Some (Issues l) -> In (RedundantPolicy p w) l ->
  exists n pols, queried g n pols /\ In p pols /\
    match w with
    | NoChange => vacuous (with_policies g [p])
    | NoRules => ~ allowing p /\ ~ denying p
    | Unexplained => allowing p \/ denying p
    | ContainedIn q => In q pols /\ q <> p /\ (allowing p \/ denying p) /\ (allowing p -> allows_contained g p q) /\ (denying p -> denies_contained p q)
    | CoveredBy qa qd => In qa pols /\ In qd pols /\ qa <> p /\ qd <> p /\ qa <> qd /\ allowing p /\ denying p /\ allows_contained g p qa /\ denies_contained p qd
    end.
Proof using R HV NE RS RR.
  intros g l p w P B NH DP H Hi. pose proof P as (HC & LD & HG). pose proof (loaded_inv g LD) as I.
  destruct (sanity_issues A Q h6 rid g l I H) as (_ & _ & _ & M). apply M in Hi as [[X _]|(n & pols & p' & li & H1 & H2 & H3 & E & Hi)]; [discriminate|].
  apply policy_issues_spec in E as (_ & _ & E). apply E in Hi as [[X _]|[[_ X]|[(_ & _ & _ & w' & X & W)|(_ & _ & _ & ing' & k' & r & w' & X & _)]]]; try discriminate.
  { apply empty_issues_spec in X as (ing' & k' & r & b & X & _). discriminate. }
  injection X as <- <-. clear E. exists n, pols. split; [split; [exact H1|apply gateway_layers; exact H2]|]. split; [exact H3|].
  assert (PL : forall q, In q pols -> In q (policy_list g) /\ of_layer n q = true) by (intros q Hq; apply (layer_policy g n pols q I H1 Hq)).
  assert (SELF : forall q, In q pols -> policy_eqb A rid q q = true) by (intros q Hq; exact (policy_eqb_self reg vis R HV NE rid RR _ q (proj1 (HG q (proj1 (PL q Hq)))) (proj2 (HG q (proj1 (PL q Hq)))))).
  assert (PC : forall q, In q pols -> plain (with_policies g [q])).
  { intros q Hq. apply plain_clone; [exact P|]. intros x [<-|[]]. apply HG. apply PL. exact Hq. }
  assert (SL : forall q, In q pols -> single_layer (with_policies g [q])).
  { intros q Hq. exists n, [q]. split; [apply lone; apply PL; exact Hq|left; exact NH]. }
  assert (DL : forall q pt, In q pols -> space pt -> (pt @ denied (layer_conns_of A (with_policies g [q]) n only_denied) <-> denies q pt)).
  { intros q pt Hq Sp. destruct (layer_parts (with_policies g [q]) n only_denied pt (plain_good _ _ _ (PC q Hq)) Sp) as (_ & [D1 D2] & _); [discriminate|].
    destruct (lone g n q (proj2 (PL q Hq))) as [LN _]. unfold layer_list in D1, D2. rewrite LN in D1, D2. unfold lget in D1, D2. cbn [find fst] in D1, D2. rewrite (proj2 (lname_eqb_eq n n) eq_refl) in D1, D2.
    cbn [option_map snd] in D1, D2. split; [intros X; apply lone_denies; apply D1; exact X|intros X; apply D2; split; [reflexivity|apply lone_denies; exact X]]. }
  assert (OA : forall g1, g1 = with_policies g [p] -> forall ps q, incl ps pols -> other_allow A Q h6 rid g p g1 ps = Some (Some q) -> In q pols /\ q <> p /\ allows_contained g p q).
  { intros g1 Eg. induction ps as [|x ps IH]; intros q S F; [discriminate|]. cbn [other_allow] in F. destruct (ends_search p x); [discriminate|].
    assert (S' : incl ps pols) by (intros y Hy; apply S; right; exact Hy). assert (Hx : In x pols) by (apply S; left; reflexivity).
    destruct (policy_eqb A rid x p) eqn:Ex; [apply IH; auto|]. destruct (ps_subset (p_selected p) (p_selected x)) eqn:Es; cbn [negb] in F; [|apply IH; auto].
    destruct (just_one g (full_name x)) as [g2|] eqn:J; [|discriminate]. apply just_one_self in J; [|exact I|apply PL; exact Hx].
    destruct (a_bool _) eqn:Ea in F; [|apply IH; auto]. injection F as <-. split; [exact Hx|]. split.
    - intros ->. exact (eq_true_false_abs _ (SELF p H3) Ex).
    - split; [apply subset_incl; exact Es|]. subst g1 g2. intros pt Sp LA CA.
      destruct (containment_spec A Q (q_src reg) (q_dst reg) a_tcp (q_space dom) a_mem (q_ok dom std_rest) (a_safe std_rest) vis q_put L QL NB h6 true false true (with_policies g [p]) (with_policies g [x])) as (K & _).
      + apply good_cfg; [exact R|exact HV|exact NE|]. apply plain_good. apply PC. exact H3.
      + apply good_cfg; [exact R|exact HV|exact NE|]. apply plain_good. apply PC. exact Hx.
      + split; [exact NH|]. right. apply SL. exact H3.
      + right. apply SL. exact Hx.
      + apply K in Ea as [_ Ea]. apply (Ea pt Sp); [|exact CA]. apply looks_rel. exact LA. }
  assert (OD : forall g1, g1 = with_policies g [p] -> forall ps q, incl ps pols -> other_deny A rid g p g1 n ps = Some (Some q) -> In q pols /\ q <> p /\ denies_contained p q).
  { intros g1 Eg. induction ps as [|x ps IH]; intros q S F; [discriminate|]. cbn [other_deny] in F. destruct (ends_search p x); [discriminate|].
    assert (S' : incl ps pols) by (intros y Hy; apply S; right; exact Hy). assert (Hx : In x pols) by (apply S; left; reflexivity).
    destruct (policy_eqb A rid x p) eqn:Ex; [apply IH; auto|]. destruct (has_deny_rules x) eqn:Es; cbn [negb] in F; [|apply IH; auto].
    destruct (just_one g (full_name x)) as [g2|] eqn:J; [|discriminate]. apply just_one_self in J; [|exact I|apply PL; exact Hx].
    destruct (deny_contained A g1 g2 n) eqn:Ea; [|apply IH; auto]. injection F as <-. split; [exact Hx|]. split.
    - intros ->. exact (eq_true_false_abs _ (SELF p H3) Ex).
    - split; [apply (allow_rules_spec g n pols x B H1 Hx); exact Es|]. subst g1 g2. intros pt Sp D. apply (DL x pt Hx Sp). unfold deny_contained in Ea.
      assert (OK : forall y, In y pols -> q_ok dom std_rest (denied (layer_conns_of A (with_policies g [y]) n only_denied))).
      { intros y Hy. apply (layer_parts (with_policies g [y]) n only_denied pt (plain_good _ _ _ (PC y Hy)) Sp). discriminate. }
      apply (proj1 (l_cont _ _ _ _ _ _ _ _ _ L _ _ (OK p H3) (OK x Hx)) Ea pt Sp). apply (DL p pt H3 Sp). exact D. }
  destruct (allow_rules_spec g n pols p B H1 H3) as [AL DN].
  unfold policy_why in W. destruct (just_one g (full_name p)) as [g1|] eqn:J; [|discriminate]. apply just_one_self in J; [|exact I|apply PL; exact H3].
  destruct (a_bool (vacuity g1)) eqn:V.
  { injection W as <-. subst g1. destruct (C34_vacuity reg vis R HV NE rid h6 RS (with_policies g [p]) (PC p H3)) as (X & _).
    - rewrite (lone_gateways g n p (proj2 (PL p H3)) H2). right. apply SL. exact H3.
    - exact (X V). }
  cbv zeta in W. specialize (OA g1 J pols). specialize (OD g1 J pols). clear V M DL SL PC.
  destruct (has_allow_rules p) eqn:Eal, (has_deny_rules p) eqn:Edn; cbn [negb andb orb] in W;
    try (assert (AL1 : allowing p) by (apply AL; reflexivity)); try (assert (DN1 : denying p) by (apply DN; reflexivity));
    try (assert (AL0 : ~ allowing p) by (intros X; apply AL in X; discriminate)); try (assert (DN0 : ~ denying p) by (intros X; apply DN in X; discriminate)).
  - destruct (other_allow A Q h6 rid g p g1 pols) as [[a|]|] eqn:Ea; [| |discriminate].
    + destruct (OA a (incl_refl _) eq_refl) as (A1 & A2 & A3). destruct (other_deny A rid g p g1 n pols) as [[d|]|] eqn:Ed; [| |discriminate]; cbn [negb andb orb] in W; injection W as <-.
      * destruct (OD d (incl_refl _) eq_refl) as (D1 & D2 & D3). destruct (policy_eqb A rid d a) eqn:Eq.
        -- assert (d = a) by (apply (DP d a (proj1 (PL d D1)) (proj1 (PL a A1))); exact Eq). subst d. auto 10.
        -- split; [exact A1|]. split; [exact D1|]. split; [exact A2|]. split; [exact D2|]. split; [|auto].
           intros ->. exact (eq_true_false_abs _ (SELF d D1) Eq).
      * left. exact AL1.
    + cbn [negb andb orb] in W. injection W as <-. left. exact AL1.
  - destruct (other_allow A Q h6 rid g p g1 pols) as [[a|]|] eqn:Ea; [| |discriminate]; cbn [negb andb orb] in W; injection W as <-.
    + destruct (OA a (incl_refl _) eq_refl) as (A1 & A2 & A3). split; [exact A1|]. split; [exact A2|]. split; [left; exact AL1|]. split; [intros _; exact A3|intros X; contradiction].
    + left. exact AL1.
  - destruct (other_deny A rid g p g1 n pols) as [[d|]|] eqn:Ed; [| |discriminate]; cbn [negb andb orb] in W; injection W as <-.
    + destruct (OD d (incl_refl _) eq_refl) as (D1 & D2 & D3). split; [exact D1|]. split; [exact D2|]. split; [right; exact DN1|]. split; [intros X; contradiction|intros _; exact D3].
    + right. exact DN1.
  - injection W as <-. auto.
Qed.
End Sanity.
