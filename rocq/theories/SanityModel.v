(** * Model of the sanity query.

    nca/NetworkConfig/NetworkConfigQuery.py:408-670 (SanityQuery) and the methods of policies only it uses:
    is_conflicting, has_allow_rules, has_deny_rules, rule_containing of
    nca/Resources/PolicyResources/{NetworkPolicy, K8sNetworkPolicy, CalicoNetworkPolicy, IstioNetworkPolicy,
    GatewayPolicy}.py.

    The texts of the answer are modelled by the data they are made of ([issue], [why]).  Not modelled: the wording, the
    findings stored with the policies (they do not influence the answer). *)
From Coq Require Import ZArith List Bool Arith String.
From Verif Require Import IntervalModel PortProtoModel PeerModel PolicyModel OrderFacts QueryModel.
Import ListNotations.
Local Open Scope string_scope.
Local Open Scope nat_scope.
Local Open Scope list_scope.

Section Sanity.
Context {C : Type} (A : cops C) (Q : qops C) (h6 : @policy C -> bool) (rid : @rule C -> @rule C -> bool).
Local Notation policy := (@policy C).
Local Notation rule := (@rule C).
Local Notation config := (@config C).
Local Notation policy_eqb := (policy_eqb A rid).

Definition rules_in_dir (p : policy) (ingress : bool) : list rule := if ingress then p_ingress p else p_egress p.
(** set.issubset, inherited by PeerSet (Peer.py:521); the elements are compared by __eq__. *)
Definition ps_subset (s t : peerset) : bool := forallb (fun p => pmem p t) s.

(** ** Conflicting policies *)
(** has_rules_with_action, CalicoNetworkPolicy.py:196-207. *)
Definition has_action (rs : list rule) (a : action) : bool :=
  existsb (fun r => pbool (r_src r) && pbool (r_dst r) && action_eqb (r_action r) a) rs.
(** _rules_contain_conflicting_actions, CalicoNetworkPolicy.py:225-237. *)
Definition conflicting_actions (rs1 rs2 : list rule) : bool :=
  (has_action rs1 Allow && has_action rs2 Deny) || (has_action rs1 Deny && has_action rs2 Allow).
(** is_conflicting, CalicoNetworkPolicy.py:239-260; [p] is self. *)
Definition is_conflicting (p q : policy) : bool :=
  if negb (ord_eqb (p_ord p) (p_ord q)) then false
  else if negb ((p_affects_in p && p_affects_in q) || (p_affects_eg p && p_affects_eg q)) then false
  else if negb (pbool (pinter (p_selected p) (p_selected q))) then false
  else if p_affects_in p && p_affects_in q && conflicting_actions (p_ingress p) (p_ingress q) then true
  else p_affects_eg p && p_affects_eg q && conflicting_actions (p_egress p) (p_egress q).
(** The loop of has_conflicting_policies_with_same_order, NetworkConfigQuery.py:430-447; [curr] is curr_set. *)
Fixpoint conflict_scan (curr ps : list policy) : option (policy * policy) :=
  match ps with
  | [] => None
  | p :: ps =>
    match curr with
    | [] => conflict_scan [p] ps
    | c :: _ =>
      if policy_lt c p then conflict_scan [p] ps
      else match find (is_conflicting p) curr with
           | Some q => Some (p, q)
           | None => conflict_scan (curr ++ [p]) ps
           end
    end
  end.
(** has_conflicting_policies_with_same_order, NetworkConfigQuery.py:417-447. *)
Definition is_calico_policy (p : policy) : bool := pclass_eqb (class_of (p_kind p)) CCalico.
Definition conflict (g : config) : option (policy * policy) :=
  match lget (lays (g_pols g)) LK8sCalico with
  | None => None
  | Some pols =>
    let cs := filter is_calico_policy pols in
    if List.length cs <=? 1 then None else conflict_scan [] cs
  end.

(** ** Explanations *)
(** has_allow_rules and has_deny_rules: NetworkPolicy.py:268-282 (the default, used by sidecars),
    K8sNetworkPolicy.py:127-140, CalicoNetworkPolicy.py:209-223, IstioNetworkPolicy.py:163-185, GatewayPolicy.py:179-211. *)
Definition some_peers (rs : list rule) : bool := existsb (fun r => pbool (r_src r)) rs.
Definition has_allow_rules (p : policy) : bool :=
  match class_of (p_kind p) with
  | CK8s => some_peers (p_ingress p) || some_peers (p_egress p)
  | CCalico => has_action (p_ingress p) Allow || has_action (p_egress p) Allow
  | CIstioAP => negb (action_eqb (p_action p) Deny) && some_peers (p_ingress p)
  | CGateway => negb (action_eqb (p_action p) Deny) && (some_peers (p_ingress p) || some_peers (p_egress p))
  | _ => false
  end.
Definition has_deny_rules (p : policy) : bool :=
  match class_of (p_kind p) with
  | CCalico => has_action (p_ingress p) Deny || has_action (p_egress p) Deny
  | CIstioAP => negb (action_eqb (p_action p) Allow) && some_peers (p_ingress p)
  | CGateway => negb (action_eqb (p_action p) Allow) && (some_peers (p_ingress p) || some_peers (p_egress p))
  | _ => false
  end.
(** The condition of lines 460-461, 483-484 and 514-515 of NetworkConfigQuery.py, under which a search ends; [q] is
    other_policy.  An order of 0 is false in Python, like a missing one. *)
Definition ends_search (p q : policy) : bool :=
  match get_order q, get_order p with
  | Some j, Some i => negb (j =? 0)%Z && negb (i =? 0)%Z && (j <? i)%Z
  | _, _ => false
  end.
(** rule_containing: NetworkPolicy.py:284-294 (the default: index 0, which is false), K8sNetworkPolicy.py:142-159,
    CalicoNetworkPolicy.py:262-277, IstioNetworkPolicy.py:144-161.  [q] is self, [p] other_policy, [r] and [i]
    other_rule and its index.  [None]: AttributeError; rules of Kubernetes policies have no attribute "action", rules of
    sidecars no method contained_in. *)
Fixpoint rule_scan (q p : policy) (r : rule) (i k : nat) (rs : list rule) : option (option (nat * bool)) :=
  match rs with
  | [] => Some None
  | s :: rs =>
    if (k =? i) && policy_eqb q p then
      match class_of (p_kind q) with CCalico => Some None | _ => rule_scan q p r i (S k) rs end
    else
      match class_of (p_kind p) with
      | CSidecar => None
      | c =>
        if c_cont A (r_props r) (r_props s) then
          match class_of (p_kind q) with
          | CCalico => match c with CCalico => Some (Some (k, negb (action_eqb (r_action s) (r_action r)))) | _ => None end
          | CIstioAP => Some (Some (k, negb (action_eqb (p_action q) (p_action p))))
          | _ => Some (Some (k, false))
          end
        else rule_scan q p r i (S k) rs
      end
  end.
Definition rule_containing (q p : policy) (r : rule) (i : nat) (rs : list rule) : option (option (nat * bool)) :=
  match class_of (p_kind q) with
  | CK8s | CIstioAP => if ps_subset (p_selected p) (p_selected q) then rule_scan q p r i 1 rs else Some None
  | CCalico => rule_scan q p r i 1 rs
  | _ => Some None
  end.
(** other_rule_containing, NetworkConfigQuery.py:502-523. *)
Fixpoint other_rule (p : policy) (r : rule) (i : nat) (ingress : bool) (pols : list policy) : option (option (policy * nat * bool)) :=
  match pols with
  | [] => Some None
  | q :: pols =>
    if ends_search p q then Some None
    else match rule_containing q p r i (rules_in_dir q ingress) with
         | None => None
         | Some (Some (k, c)) => Some (Some (q, k, c))
         | Some None => other_rule p r i ingress pols
         end
  end.
(** other_policy_containing_allow, NetworkConfigQuery.py:449-470; [g1] is config_with_self_policy ([None]: an exception). *)
Fixpoint other_allow (g : config) (p : policy) (g1 : config) (pols : list policy) : option (option policy) :=
  match pols with
  | [] => Some None
  | q :: pols =>
    if ends_search p q then Some None
    else if policy_eqb q p then other_allow g p g1 pols
    else if negb (ps_subset (p_selected p) (p_selected q)) then other_allow g p g1 pols
    else match just_one g (full_name q) with
         | None => None
         | Some g2 => if a_bool (containment A Q h6 true false true g1 g2) then Some (Some q) else other_allow g p g1 pols
         end
  end.
(** check_deny_containment, NetworkConfigQuery.py:495-500. *)
Definition deny_contained (g1 g2 : config) (n : lname) : bool :=
  c_cont A (denied (layer_conns_of A g1 n only_denied)) (denied (layer_conns_of A g2 n only_denied)).
(** other_policy_containing_deny, NetworkConfigQuery.py:472-493. *)
Fixpoint other_deny (g : config) (p : policy) (g1 : config) (n : lname) (pols : list policy) : option (option policy) :=
  match pols with
  | [] => Some None
  | q :: pols =>
    if ends_search p q then Some None
    else if policy_eqb q p then other_deny g p g1 n pols
    else if negb (has_deny_rules q) then other_deny g p g1 n pols
    else match just_one g (full_name q) with
         | None => None
         | Some g2 => if deny_contained g1 g2 n then Some (Some q) else other_deny g p g1 n pols
         end
  end.
(** What redundant_policy_text says, NetworkConfigQuery.py:553-589. *)
Inductive why :=
| NoChange                            (* it does not change default connectivity *)
| NoRules                             (* it contains no effective allow/deny rules *)
| Unexplained
| ContainedIn (q : policy)
| CoveredBy (qa qd : policy).         (* its allow rules / its deny rules *)
Definition policy_why (g : config) (p : policy) (n : lname) (pols : list policy) : option why :=
  match just_one g (full_name p) with
  | None => None
  | Some g1 =>
    if a_bool (vacuity A Q h6 rid g1) then Some NoChange
    else
      let al := has_allow_rules p in
      let dn := has_deny_rules p in
      if negb dn && negb al then Some NoRules
      else
        match (if al then other_allow g p g1 pols else Some None) with
        | None => None
        | Some qa =>
          let found x := match x : option policy with Some _ => true | None => false end in
          match (if dn && (negb al || found qa) then other_deny g p g1 n pols else Some None) with
          | None => None
          | Some qd =>
            Some (if (al && negb (found qa)) || (dn && negb (found qd)) then Unexplained
                  else match qa, qd with
                       | Some a, Some d => if negb dn then ContainedIn a else if negb al then ContainedIn d
                                           else if policy_eqb d a then ContainedIn a else CoveredBy a d
                       | Some a, None => ContainedIn a
                       | None, Some d => ContainedIn d
                       | None, None => Unexplained
                       end)
          end
        end
  end.

(** ** The query *)
Inductive issue :=
| Vacuous
| EmptyPolicy (p : policy)
| EmptyRule (p : policy) (ingress : bool) (k : nat) (source : bool)  (* which side selects no pods *)
| RedundantPolicy (p : policy) (w : why)
| RedundantRule (p : policy) (ingress : bool) (k : nat) (w : option (policy * nat * bool)).
(** The explanations of has_empty_rules: K8sNetworkPolicy.py:94-117, CalicoNetworkPolicy.py:163-194 (one per empty side),
    IstioNetworkPolicy.py:102-121, IstioSidecar.py:78-94, GatewayPolicy.py:134-156. *)
Fixpoint empty_sides (p : policy) (ingress : bool) (k : nat) (rs : list rule) : list issue :=
  match rs with
  | [] => []
  | r :: rs =>
    (if pbool (r_src r) then [] else [EmptyRule p ingress k true]) ++
    (match class_of (p_kind p) with CCalico => if pbool (r_dst r) then [] else [EmptyRule p ingress k false] | _ => [] end) ++
    empty_sides p ingress (S k) rs
  end.
Definition empty_issues (p : policy) : list issue :=
  (match class_of (p_kind p) with CSidecar | CBase => [] | _ => empty_sides p true 1 (p_ingress p) end) ++
  (match class_of (p_kind p) with CIstioAP | CBase => [] | _ => empty_sides p false 1 (p_egress p) end).
(** The loops of lines 646-661. *)
Definition rule_issue (p : policy) (ingress : bool) (pols : list policy) (k : nat) : option issue :=
  match nth_error (rules_in_dir p ingress) (k - 1) with
  | None => None
  | Some r => match other_rule p r k ingress pols with None => None | Some w => Some (RedundantRule p ingress k w) end
  end.
Definition rule_issues (g : config) (n : lname) (p : policy) (ingress : bool) (pols : list policy) : option (list issue) :=
  mapM (rule_issue p ingress pols)
       (filter (fun k => negb (existsb (Nat.eqb k) (empty_rules p ingress))) (redundant_rules A Q h6 rid g n p ingress)).
(** The body of the loop of lines 618-661; [vac] is the answer about vacuity, [names] redundant_policies. *)
Definition policy_issues (g : config) (vac : bool) (n : lname) (pols : list policy) (names : list string) (p : policy) : option (list issue) :=
  if negb (pbool (p_selected p)) then Some [EmptyPolicy p]
  else if vac then Some (empty_issues p)
  else if existsb (String.eqb (full_name p)) names then
    match policy_why g p n pols with None => None | Some w => Some (empty_issues p ++ [RedundantPolicy p w]) end
  else match rule_issues g n p true pols, rule_issues g n p false pols with
       | Some l, Some m => Some (empty_issues p ++ l ++ m)
       | _, _ => None
       end.
Definition layer_issues (g : config) (vac : bool) (l : lname * list policy) : option (list issue) :=
  if is_gateway_layer (fst l) then Some []
  else match mapM (policy_issues g vac (fst l) (snd l) (redundant_policies A Q h6 rid g (snd l) (fst l))) (snd l) with
       | None => None
       | Some r => Some (List.concat r)
       end.
(** exec, NetworkConfigQuery.py:591-670 ([None]: an exception). *)
Inductive report := NothingToCheck | Conflict (p q : policy) | Issues (l : list issue).
Definition sanity (g : config) : option report :=
  if negb (has_policies g) then Some NothingToCheck
  else match conflict g with
       | Some (p, q) => Some (Conflict p q)
       | None =>
         let vac := a_bool (vacuity A Q h6 rid g) in
         match mapM (layer_issues g vac) (lays (g_pols g)) with
         | None => None
         | Some r => Some (Issues ((if vac then [Vacuous] else []) ++ List.concat r))
         end
       end.
Definition sanity_answer (r : report) : @answer C :=
  match r with
  | NothingToCheck => Answer false 0 false []
  | Conflict _ _ => Answer false 1 false []
  | Issues l => Answer (List.length l =? 0) (Z.of_nat (List.length l)) false []
  end.
End Sanity.
Arguments NoChange {C}. Arguments NoRules {C}. Arguments Unexplained {C}. Arguments ContainedIn {C}. Arguments CoveredBy {C}.
Arguments Vacuous {C}. Arguments EmptyPolicy {C}. Arguments EmptyRule {C}. Arguments RedundantPolicy {C}. Arguments RedundantRule {C}.
Arguments NothingToCheck {C}. Arguments Conflict {C}. Arguments Issues {C}.
