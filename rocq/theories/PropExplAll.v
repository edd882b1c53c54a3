(** * C77: the explanations of one endpoint, and of all pairs. *)
From Coq Require Import ZArith List Bool Arith Lia String Ascii Sorted.
From Verif Require Import MinDfaModel ConnTextModel IntervalModel IntervalFacts HyperModel HyperFacts HyperTop HyperInst PropHyperCube ConnModel ConnFacts TextModel PortProtoModel GraphModel GraphFacts
                          PeerModel PeerFacts PeerSetFacts PolicyModel PolicyLaws PolicyFacts LayerFacts OrderFacts ConnAlg StdDims PropLayers QueryModel QueryFacts QueryAlg QuerySpecs QueryOne
                          YamlModel ClusterModel FWModel FWFacts FWAlg FWLabels PropFW MapModel MapFacts CalicoSelectorSets PropQueries PropMap ExplModel ExplFacts ExplLayers ExplRun ExplAll PropExpl.
Import ListNotations.
Local Open Scope string_scope.
Local Open Scope list_scope.
Local Open Scope nat_scope.

Section Expl.
Context (reg vis : list peer) (R : reg_ok reg) (HV : container reg vis) (NE : vis <> []) (h6 : policy -> bool).
Context (cl : cluster) (owner workload : peer -> string) (LP : labels_plain cl vis) (fname : peer -> string).
Let dom := query_dom reg vis.
Let QK := query_alg reg vis R HV NE.
Let A := cube_ops dom std_all reg.
Let Q := cube_qops dom std_all reg.
Let L := q_claws dom std_rest reg vis _ _ QK.
Let QL := q_qlaws dom std_rest reg vis _ _ QK.
Let NB : forall p, In p vis -> is_block p = false := fun p H => proj2 (HV p H).
Let EL := cube_ends_law dom reg vis _ QK.
Local Notation ends := (cube_ends dom reg std_all).
Local Notation names_apart := (names_apart vis fname).
Local Notation described := (described fname).
Local Notation map_connects := (map_connects reg vis h6 cl owner workload).

(** ** Vocabulary *)
(** The tracker after loading and the query. *)
Definition after_query (ep : string) items docs gates sidecars (flag : bool) (s : subset) (g : config) : option tracker :=
  tracked A ends fname cl owner workload Q h6 ep items docs gates sidecars flag s g.
(** Every name can be typed in as it is. *)
Definition nameable : Prop := forall q, is_block q = true \/ In q vis -> fname q <> "" /\ has_char "[" (fname q) = false /\ has_char "]" (fname q) = false.
(** What is asked for an ordered pair: both names, or the name once. *)
Definition asked (x y : string) : list string := if String.eqb x y then [x] else [x; y].

(** ** C77 *)
(** C77, one endpoint.  If no subset is chosen then the explanation of a single pod (or host endpoint) lists, in order, exactly the names of the
    policies selecting it, besides that of the default. *)
Theorem C77_explains_one : forall ep items docs gates sidecars flag g k n,
  plain reg vis g -> answerable reg vis None g -> documents_of docs gates sidecars g -> names_apart -> ep <> "deployments" ->
  In (Named k n) (g_peers g) -> described items (Named k n) ->
  exists t l, after_query ep items docs gates sidecars flag (Subset None None None) g = Some t /\ explain_nodes A fname t [fname (Named k n)] = Some (ROne (fname (Named k n)) l) /\ in_order l /\
    forall z, z <> "Default-Policy" -> (In z l <-> exists p, In p (policy_list g) /\ pt_in (PN k n) (p_selected p) /\ p_name p = z).
Proof using R HV NE.
  intros ep items docs gates sidecars flag g k n P S [LD ND] FN Ep Hk (A1 & A2 & A3).
  pose proof (plain_good reg vis g P) as G. pose proof (good_cfg reg vis R HV NE g G) as CG. pose proof (answer_ok reg vis None g S) as CS. pose proof (loaded_inv g (proj1 (proj2 P))) as Iv.
  set (s := Subset None None None) in *.
  destruct (run_node A Q (q_src reg) (q_dst reg) a_tcp (q_space dom) a_mem (q_ok dom std_rest) (a_safe std_rest) vis q_put L QL NB ends fname EL FN cl owner workload g CG CS docs gates sidecars LD
              (fun p Hp => proj1 (good_policy reg vis R HV NE g P p Hp)) ND h6 ep items flag s k n Hk (conj A1 A2)) as (tl & t' & tf & ps & Ru).
  destruct (expl_peers_spec A Q (q_src reg) (q_dst reg) a_tcp (q_space dom) a_mem (q_ok dom std_rest) (a_safe std_rest) vis q_put L QL NB ends EL cl owner workload g CG CS h6 t' flag s) as (ps' & Ep' & Pp & _ & Pc).
  pose proof Ru as [Rrun _ _ Rkeep Rpeers Rexpl _ Rep Ritem _ _]. rewrite Rexpl in Ep'. injection Ep' as <-. pose proof (Pc eq_refl k n Hk) as Pk.
  destruct (all_policies A Q (q_src reg) (q_dst reg) (q_space dom) a_mem (q_ok dom std_rest) (a_safe std_rest) vis ends fname FN cl owner workload g CG docs gates sidecars LD
              (fun p Hp => proj1 (good_policy reg vis R HV NE g P p Hp)) h6 ep items flag s k n tl t' tf ps Hk Ru) as (K1 & F1 & B1); [apply hit_spec; eauto|].
  set (a := fname (Named k n)) in *.
  assert (I1 : item_at tf a = true) by (unfold item_at; rewrite Ritem; apply (k_item _ _ _ Rkeep)).
  pose proof (working_self ep Ep tf a Rep A3) as Wa.
  assert (AL : forall z, In z (policies_of tf a (fun r => Some (af_all r))) <-> In z (all_at tf a)).
  { intros z. unfold policies_of, all_at. destruct (dget (t_of tf) a); [apply sorted_set_In|tauto]. }
  exists tf, (policies_of tf a (fun r => Some (af_all r))). split; [exact Rrun|]. split; [|split].
  - unfold explain_nodes. cbn [forallb]. unfold has_results. rewrite Wa. unfold item_at, known in *. destruct (dget (t_items tf) a); [|discriminate]. destruct (dget (t_of tf) a); [reflexivity|discriminate].
  - apply ascending_order. unfold policies_of. destruct (dget (t_of tf) a) as [r|]; [apply sorted_asc|constructor].
  - intros z Nz. rewrite AL. split; [intros Hz; destruct (B1 z Hz) as [Hd|Hp]; [destruct (Nz Hd)|exact Hp]|]. intros (p & Hp & Hs & <-). apply F1; assumption.
Qed.
(** C77, all pairs.  explain_all fails for no pair: it has one entry for each ordered pair of names, in order, and none says that a name is unknown.
    The names are in order and without repetition; those of both ends of any connection of the map are among them, and if no subset is chosen, those
    of all endpoints. *)
Theorem C77_explains_all : forall ep items docs gates sidecars flag s g,
  plain reg vis g -> answerable reg vis None g -> documents_of docs gates sidecars g -> names_apart -> nameable -> ep <> "deployments" ->
  (exists k n, In (Named k n) (g_peers g) /\ described items (Named k n)) ->
  exists t names out, after_query ep items docs gates sidecars flag s g = Some t /\ explain_all A fname t = Some out /\ in_order names /\ map fst out = list_prod names names /\
    (forall x y text, In (x, y, text) out -> explain A fname t (asked x y) = Some text /\ exists r, explain_nodes A fname t (asked x y) = Some r /\ r <> RNone) /\
    (s = Subset None None None -> forall k n, In (Named k n) (g_peers g) -> In (fname (Named k n)) names) /\
    (forall ka na kb nb, map_connects flag s g (PN ka na) (PN kb nb) -> In (fname (Named ka na)) names /\ In (fname (Named kb nb)) names).
Proof using R HV NE LP.
  intros ep items docs gates sidecars flag s g P S [LD ND] FN FB Ep (k & n & Hk & A1 & A2 & A3).
  pose proof (plain_good reg vis g P) as G. pose proof (good_cfg reg vis R HV NE g G) as CG. pose proof (answer_ok reg vis None g S) as CS. pose proof (loaded_inv g (proj1 (proj2 P))) as Iv.
  destruct (run_node A Q (q_src reg) (q_dst reg) a_tcp (q_space dom) a_mem (q_ok dom std_rest) (a_safe std_rest) vis q_put L QL NB ends fname EL FN cl owner workload g CG CS docs gates sidecars LD
              (fun p Hp => proj1 (good_policy reg vis R HV NE g P p Hp)) ND h6 ep items flag s k n Hk (conj A1 A2)) as (tl & t' & tf & ps & [Rrun _ _ _ _ _ _ _ _ _ _]).
  destruct (tracked_known A ends fname cl owner workload Q h6 _ _ _ _ _ _ _ _ _ Rrun) as (u & ps' & Eu & K). clear t' ps.
  destruct (expl_peers_spec A Q (q_src reg) (q_dst reg) a_tcp (q_space dom) a_mem (q_ok dom std_rest) (a_safe std_rest) vis q_put L QL NB ends EL cl owner workload g CG CS h6 u flag s) as (ps & Ep' & [Pp1 Pp2] & Pc & Pn).
  rewrite Eu in Ep'. injection Ep' as ->.
  assert (FBp : forall p, In p ps -> fname p <> "" /\ has_char "[" (fname p) = false /\ has_char "]" (fname p) = false) by (intros [k' n'|l] Hp; apply FB; [right; apply Pp2; exact Hp|left; reflexivity]).
  destruct K as (K1 & K2 & K3 & K4 & K5); [intros p Hp; apply FBp; exact Hp|].
  destruct (explain_all_spec A fname tf) as (names & out & E1 & E2 & E3 & E4 & E5); [congruence|exact K1|exact K2| |].
  { rewrite K3. intros p Hp. split; [|apply K5; exact Hp]. apply (working_self ep Ep); [exact K4|]. apply FBp. exact Hp. }
  rewrite K3 in E3. exists tf, names, out. split; [exact Rrun|]. split; [exact E1|]. split; [apply ascending_order; exact E2|]. split; [exact E4|]. split; [|split].
  - intros x y text H. destruct (E5 x y text H) as (r & R1 & R2 & R3). split; [exact R3|]. exists r. split; [exact R1|exact R2].
  - intros -> k' n' H. apply E3. exists (Named k' n'). split; [apply Pn; [reflexivity|exact H]|reflexivity].
  - intros ka na kb nb Mc. apply (connects_linked reg vis R HV NE h6 cl owner workload LP) in Mc; [|exact P|exact S]. destruct Mc as (pt & Sp & Sa & Sb & Mx).
    destruct (expl_conns_spec A Q (q_src reg) (q_dst reg) a_tcp (q_space dom) a_mem (q_ok dom std_rest) (a_safe std_rest) vis q_put L QL NB cl owner workload g CG CS h6 flag s) as [_ X]. cbv zeta in X.
    apply X in Mx as [Mm _]; [|exact Sp]. destruct (Pc pt Sp Mm) as [Pa Pb]. rewrite Sa in Pa. rewrite Sb in Pb. cbn [pt_in] in Pa, Pb. split; apply E3; [exists (Named ka na)|exists (Named kb nb)]; auto.
Qed.
End Expl.
Print Assumptions C77_explains_one.
Print Assumptions C77_explains_all.
