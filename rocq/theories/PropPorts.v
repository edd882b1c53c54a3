(** * Claims C04 (text), C05, C06, C07: printed interval sets, port sets, protocol and method sets. *)
From Coq Require Import ZArith List Bool String Ascii Lia ZifyBool.
From Verif Require Import IntervalModel IntervalFacts TextModel TextFacts PortProtoModel PortProtoFacts PropInterval.
Import ListNotations.
Local Open Scope string_scope.
Local Open Scope Z_scope.

(** ** C04: reading a printed interval set back *)
(** A reader written independently of the printer: split at commas, then at '-'; one number
    [n] stands for n-n; the word Empty for the empty set. *)
Definition read_item (s : string) : option (Z * Z) :=
  match split "-" s with
  | [a] => match Z_of_str a with Some n => Some (n, n) | None => None end
  | [a; b] => match Z_of_str a, Z_of_str b with Some m, Some n => Some (m, n) | _, _ => None end
  | _ => None
  end.
Fixpoint read_items (l : list string) : option (list (Z * Z)) :=
  match l with
  | [] => Some []
  | x :: t => match read_item x, read_items t with Some i, Some r => Some (i :: r) | _, _ => None end
  end.
Definition read_set (s : string) : option (list (Z * Z)) :=
  if String.eqb s "Empty" then Some [] else read_items (split "," s).

Lemma read_item_ok i : 0 <= lo i -> 0 <= hi i -> read_item (ivl_text i) = Some (lo i, hi i).
Proof.
  intros H1 H2. destruct (str_of_Z_digits (lo i) H1) as [D1 _], (str_of_Z_digits (hi i) H2) as [D2 _].
  unfold read_item, ivl_text. destruct (lo i =? hi i) eqn:E.
  - rewrite app_nil_s, split_nochar by (apply digits_nochar; auto). rewrite Z_of_str_of_Z. repeat f_equal. lia.
  - cbn [append]. rewrite split_app_char by (apply digits_nochar; auto).
    rewrite split_nochar by (apply digits_nochar; auto). rewrite !Z_of_str_of_Z. reflexivity.
Qed.
Lemma read_items_ok l : (forall i, In i l -> 0 <= lo i /\ 0 <= hi i) ->
  read_items (map ivl_text l) = Some (map (fun i => (lo i, hi i)) l).
Proof.
  induction l as [|i l IH]; intros H; [reflexivity|]. cbn [map read_items].
  rewrite read_item_ok by (apply H; simpl; auto). rewrite IH by (intros; apply H; simpl; auto). reflexivity.
Qed.
Lemma read_set_ok l : (forall i, In i l -> 0 <= lo i /\ 0 <= hi i) ->
  read_set (iset_repr l) = Some (map (fun i => (lo i, hi i)) l).
Proof.
  intros H. destruct l as [|i l]; [reflexivity|]. rewrite iset_repr_join by discriminate.
  assert (F : Forall (fun s => has_char "," s = false) (map ivl_text (i :: l))).
  { apply Forall_forall. intros s Hs. apply in_map_iff in Hs as [j [<- Hj]]. apply H in Hj.
    apply ivl_text_nocomma; tauto. }
  unfold read_set. pose proof (split_join "," (map ivl_text (i :: l))) as S.
  rewrite S by (auto; discriminate). rewrite read_items_ok by auto.
  destruct (String.eqb_spec (join "," (map ivl_text (i :: l))) "Empty") as [E|E]; auto. exfalso.
  rewrite E in S. specialize (S ltac:(discriminate) F). cbn [map] in S.
  assert (HH : split "," "Empty" = ["Empty"]) by reflexivity. rewrite HH in S. injection S as S _.
  destruct (H i) as [A B]; [simpl; auto|]. pose proof (read_item_ok i A B) as R. rewrite <- S in R. discriminate.
Qed.

(** The text of every reachable set of non-negative numbers reads back as a list of ranges
    whose numbers are exactly those of the set; the printed items (as used for YAML/JSON output)
    read back too. *)
Theorem C04_printed_text_denotes_the_set : forall p, ordered p -> (forall x, denot p x -> 0 <= x) ->
  exists l rs, run p = Some l /\ read_set (iset_repr l) = Some rs /\ read_items (iset_items_text l) = Some rs /\
    forall x, (exists ab, In ab rs /\ fst ab <= x <= snd ab) <-> denot p x.
Proof.
  intros p Hp Hn. destruct (run_ok p Hp) as (l & E & C & M). exists l, (map (fun i => (lo i, hi i)) l).
  assert (H : forall i, In i l -> 0 <= lo i /\ 0 <= hi i).
  { intros i Hi. pose proof (canonical_in _ _ C Hi) as Hi'. assert (0 <= lo i); [|lia]. apply Hn, M. exists i. split; auto. lia. }
  split; auto. split; [apply read_set_ok; auto|]. split; [apply read_items_ok; auto|]. intros x. rewrite <- M. split.
  - intros [[a b] [H1 H2]]. apply in_map_iff in H1 as [i [E1 E2]]. injection E1 as <- <-. exists i. auto.
  - intros [i [H1 H2]]. exists (lo i, hi i). split; auto. apply in_map_iff. eauto.
Qed.

Theorem C04_different_sets_print_differently : forall p q, ordered p -> ordered q ->
  (forall x, denot p x -> 0 <= x) -> (forall x, denot q x -> 0 <= x) ->
  exists l m, run p = Some l /\ run q = Some m /\
    (iset_repr l = iset_repr m <-> forall x, denot p x <-> denot q x).
Proof.
  intros p q Hp Hq Np Nq.
  destruct (C04_printed_text_denotes_the_set p Hp Np) as (l & rs & E & R & _ & D).
  destruct (C04_printed_text_denotes_the_set q Hq Nq) as (m & rs' & E' & R' & _ & D').
  exists l, m. split; auto. split; auto. split.
  - intros H x. rewrite H in R. assert (rs = rs') by congruence. subst. rewrite <- D, <- D'. tauto.
  - intros H. f_equal. destruct (run_ok p Hp) as (l1 & E1 & C1 & M1), (run_ok q Hq) as (m1 & E2 & C2 & M2).
    assert (l1 = l) by congruence. assert (m1 = m) by congruence. subst. apply canonical_ext; auto.
    intros x. rewrite M1, M2. auto.
Qed.

Example C04_example : iset_repr [Ivl 1 3; Ivl 80 80] = "1-3,80" /\ read_set "1-3,80" = Some [(1, 3); (80, 80)].
Proof. split; reflexivity. Qed.

(** ** C05: port sets *)
(** Histories of port-set operations. *)
Inductive pexp :=
| PNew (all_ports : bool)
| PAdd (e : pexp) (x : port)
| PAddRange (e : pexp) (a b : Z)
| PRemove (e : pexp) (x : port)
| POr (e f : pexp)
| PSub (e f : pexp).

(** The numbers a history leaves in the set. *)
Fixpoint numbers (e : pexp) (n : Z) : Prop :=
  match e with
  | PNew all => all = true /\ 1 <= n <= 65535
  | PAdd e (PNum m) => numbers e n \/ n = m
  | PRemove e (PNum m) => numbers e n /\ n <> m
  | PAdd e (PName _) | PRemove e (PName _) => numbers e n
  | PAddRange e a b => numbers e n \/ a <= n <= b
  | POr e f => numbers e n \/ numbers f n
  | PSub e f => numbers e n /\ ~ numbers f n
  end.
(** The last thing a history did to a name: [Some true] added it, [Some false] removed it. *)
Fixpoint last_op (e : pexp) (s : string) : option bool :=
  match e with
  | PNew _ => None
  | PAdd e (PName t) => if String.eqb s t then Some true else last_op e s
  | PRemove e (PName t) => if String.eqb s t then Some false else last_op e s
  | PAdd e (PNum _) | PRemove e (PNum _) | PAddRange e _ _ => last_op e s
  | POr e f => match last_op f s with Some true => Some true | _ => last_op e s end
  | PSub e f => match last_op f s with Some true => Some false | _ => last_op e s end
  end.
Fixpoint ranges_ordered (e : pexp) : Prop :=
  match e with
  | PNew _ => True
  | PAdd e _ | PRemove e _ => ranges_ordered e
  | PAddRange e a b => ranges_ordered e /\ a <= b
  | POr e f | PSub e f => ranges_ordered e /\ ranges_ordered f
  end.
Fixpoint prun (e : pexp) : option portset :=
  match e with
  | PNew all => Some (ps_new all)
  | PAdd e x => bind (prun e) (fun p => ps_add_port p x)
  | PAddRange e a b => bind (prun e) (fun p => ps_add_range p a b)
  | PRemove e x => bind (prun e) (fun p => Some (ps_remove_port p x))
  | POr e f => bind (prun e) (fun p => bind (prun f) (fun q => ps_or p q))
  | PSub e f => bind (prun e) (fun p => bind (prun f) (fun q => Some (ps_sub p q)))
  end.

Lemma prun_ok e : ranges_ordered e -> exists p, prun e = Some p /\ canonical (port_set p) /\
  (forall n, mem n (port_set p) <-> numbers e n) /\
  (forall s, In s (named_ports p) <-> last_op e s = Some true) /\
  (forall s, In s (excluded_named_ports p) <-> last_op e s = Some false).
Proof.
  induction e as [all|e IH x|e IH a b|e IH x|e IHe f IHf|e IHe f IHf]; cbn [ranges_ordered prun numbers last_op].
  - intros _. eexists. split; [reflexivity|]. destruct all; simpl.
    + split; [lia|]. split; [|split; intros; (split; [intros []|discriminate])].
      intros n. unfold all_ports_interval. rewrite mem_cons, mem_nil. simpl. intuition.
    + split; [exact I|]. split; [|split; intros; split; try discriminate; intros []].
      intros n. rewrite mem_nil. split; [intros []|intros [? _]; discriminate].
  - intro H. destruct (IH H) as (p & E & C & N & I1 & I2). rewrite E. cbn [bind]. destruct x as [m|t]; cbn [ps_add_port].
    + destruct (add_interval_ok (port_set p) (Ivl m m) C) as (l & El & Cl & Ml & _); [simpl; lia|]. rewrite El. cbn [bind].
      eexists. split; [reflexivity|]. simpl. split; auto. split; auto. intros n. rewrite Ml, N. simpl. intuition lia.
    + eexists. split; [reflexivity|]. simpl. split; auto. split; auto. split; intros s.
      * rewrite sadd_In, I1. destruct (String.eqb_spec s t); intuition congruence.
      * rewrite sdiscard_In, I2. destruct (String.eqb_spec s t); intuition congruence.
  - intros [H Hab]. destruct (IH H) as (p & E & C & N & I1 & I2). rewrite E. cbn [bind]. unfold ps_add_range.
    destruct (add_interval_ok (port_set p) (Ivl a b) C) as (l & El & Cl & Ml & _); [simpl; lia|]. rewrite El. cbn [bind].
    eexists. split; [reflexivity|]. simpl. split; auto. split; auto. intros n. rewrite Ml, N. simpl. tauto.
  - intro H. destruct (IH H) as (p & E & C & N & I1 & I2). rewrite E. cbn [bind]. destruct x as [m|t]; cbn [ps_remove_port].
    + destruct (add_hole_ok (port_set p) (Ivl m m) C) as (Cl & Ml & _); [simpl; lia|].
      eexists. split; [reflexivity|]. simpl. split; auto. split; auto. intros n. rewrite Ml, N. simpl. intuition lia.
    + eexists. split; [reflexivity|]. simpl. split; auto. split; auto. split; intros s.
      * rewrite sdiscard_In, I1. destruct (String.eqb_spec s t); intuition congruence.
      * rewrite sadd_In, I2. destruct (String.eqb_spec s t); intuition congruence.
  - intros [H1 H2]. destruct (IHe H1) as (p & E & C & N & I1 & I2), (IHf H2) as (q & F & D & M & J1 & J2).
    rewrite E, F. cbn [bind]. unfold ps_or.
    destruct (iset_or_ok (port_set q) (port_set p) C D) as (l & El & Cl & Ml & _). rewrite El. cbn [bind].
    eexists. split; [reflexivity|]. simpl. split; auto. split; [intros n; rewrite Ml, N, M; tauto|]. split; intros s.
    + rewrite sunion_In, I1, J1. destruct (last_op f s) as [[]|]; intuition congruence.
    + rewrite sminus_In, I2, J1. destruct (last_op f s) as [[]|]; intuition congruence.
  - intros [H1 H2]. destruct (IHe H1) as (p & E & C & N & I1 & I2), (IHf H2) as (q & F & D & M & J1 & J2).
    rewrite E, F. cbn [bind]. unfold ps_sub.
    destruct (iset_sub_ok (port_set q) (port_set p) C D) as (Cl & Ml & _).
    eexists. split; [reflexivity|]. simpl. split; auto. split; [intros n; rewrite Ml, N, M; tauto|]. split; intros s.
    + rewrite sminus_In, I1, J1. destruct (last_op f s) as [[]|]; intuition congruence.
    + rewrite sunion_In, I2, J1. destruct (last_op f s) as [[]|]; intuition congruence.
Qed.

Theorem C05_port_sets_track_history : forall e, ranges_ordered e ->
  exists p, prun e = Some p /\
    (forall n, mem n (port_set p) <-> numbers e n) /\
    (forall s, In s (named_ports p) <-> last_op e s = Some true) /\
    (forall s, In s (excluded_named_ports p) <-> last_op e s = Some false) /\
    (forall s, ~ (In s (named_ports p) /\ In s (excluded_named_ports p))).
Proof.
  intros e H. destruct (prun_ok e H) as (p & E & C & N & I1 & I2). exists p. repeat (split; [auto|]).
  intros s [A B]. apply I1 in A. apply I2 in B. congruence.
Qed.

(** Equality, truth value and "all ports" of reachable port sets. *)
Theorem C05_port_set_equality_exact : forall e f, ranges_ordered e -> ranges_ordered f ->
  exists p q, prun e = Some p /\ prun f = Some q /\
    (ps_eqb p q = true <-> (forall n, numbers e n <-> numbers f n) /\ (forall s, last_op e s = last_op f s)) /\
    (ps_bool p = true <-> (exists n, numbers e n) \/ exists s, last_op e s = Some true) /\
    ps_is_empty p = negb (ps_bool p) /\
    (ps_is_all p = true <-> forall n, numbers e n <-> 1 <= n <= 65535).
Proof.
  intros e f He Hf. destruct (prun_ok e He) as (p & E & C & N & I1 & I2), (prun_ok f Hf) as (q & F & D & M & J1 & J2).
  exists p, q. split; auto. split; auto. split; [|split; [|split]].
  - unfold ps_eqb. rewrite !andb_true_iff, !sset_eqb_iff, iset_eqb_eq. split.
    + intros [[A B] B']. split; [intros n; rewrite <- N, <- M, A; tauto|]. intros s.
      pose proof (B s) as X. rewrite I1, J1 in X. pose proof (B' s) as Y. rewrite I2, J2 in Y.
      destruct (last_op e s) as [[]|], (last_op f s) as [[]|]; intuition congruence.
    + intros [A B]. split; [split|]; [apply canonical_ext; auto; intro; rewrite N, M; auto| |];
        intro s; [rewrite I1, J1, B|rewrite I2, J2, B]; tauto.
  - unfold ps_bool. rewrite orb_true_iff, iset_bool_ok by auto. split.
    + intros [[x Hx]|H]; [left; exists x; apply N; auto|right].
      destruct (named_ports p) as [|s t] eqn:Ep; [discriminate|]. exists s. apply I1. simpl; auto.
    + intros [[x Hx]|[s Hs]]; [left; exists x; apply N; auto|right]. apply I1 in Hs.
      destruct (named_ports p); [destruct Hs|reflexivity].
  - unfold ps_is_empty, ps_bool. destruct (iset_bool (port_set p)), (named_ports p); reflexivity.
  - unfold ps_is_all. rewrite iset_eqb_eq. split.
    + intros A n. rewrite <- N, A. unfold all_ports_interval. rewrite mem_cons, mem_nil. simpl. tauto.
    + intros A. apply canonical_ext; auto; [simpl; lia|]. intros n. rewrite N, A. unfold all_ports_interval.
      rewrite mem_cons, mem_nil. simpl. tauto.
Qed.

Definition ex_ports : pexp :=
  PSub (POr (PRemove (PAdd (PNew true) (PName "http")) (PNum 80)) (PAdd (PNew false) (PName "dns")))
       (PAddRange (PAdd (PNew false) (PName "http")) 8000 8080).
Example C05_example : ranges_ordered ex_ports /\
  prun ex_ports = Some (PortSet [Ivl 1 79; Ivl 81 7999; Ivl 8081 65535] ["dns"] ["http"]).
Proof. split; [simpl; intuition lia|vm_compute; reflexivity]. Qed.

(** Finding: [|=] ignores the names the other operand excludes, so that or-ing a set into the
    empty set does not give that set back. *)
Theorem C05_union_drops_exclusions_refuted :
  exists e, ranges_ordered e /\ exists p q, prun e = Some p /\ prun (POr (PNew false) e) = Some q /\ ps_eqb q p = false.
Proof.
  exists (PRemove (PNew true) (PName "http")). split; [exact I|].
  eexists; eexists. repeat split; vm_compute; reflexivity.
Qed.

(** ** C06: names of methods and protocols *)
(** What a printed form says about number [n], for numbers [a..b] with names [name]. *)
Definition says (a b : Z) (name : Z -> string) (text : string) (n : Z) : Prop :=
  a <= n <= b /\
  if String.eqb text "*" then True
  else if String.eqb text "Empty" then False
  else if prefix "all but " text then ~ In (name n) (parts (substring 8 (String.length text - 8) text))
  else In (name n) (parts text).

Lemma substring_all s : substring 0 (String.length s) s = s.
Proof. induction s as [|x s IH]; simpl; congruence. Qed.
Lemma substring_drop s t : substring (String.length s) (String.length (s ++ t) - String.length s) (s ++ t) = t.
Proof.
  rewrite length_app_s, Nat.add_comm, Nat.add_sub. induction s as [|x s IH]; [apply substring_all|exact IH].
Qed.

Lemma parts_nil : parts "" = [""].
Proof. reflexivity. Qed.
Lemma In_parts_join (name : Z -> string) a b n ns :
  (forall m, a <= m <= b -> clean (name m) = true) -> a <= n <= b ->
  Forall (fun s => clean s = true) ns -> (In (name n) (parts (join ", " ns)) <-> In (name n) ns).
Proof.
  intros Hc Hn F. destruct ns as [|x t]; [|rewrite parts_join by (auto; discriminate); tauto].
  cbn [join]. rewrite parts_nil. specialize (Hc n Hn). apply clean_inv in Hc as (_ & _ & _ & _ & Hc).
  split; [intros [E|[]]; congruence|intros []].
Qed.

Lemma says_join name a b n ns (S : Z -> Prop) :
  (forall m, a <= m <= b -> clean (name m) = true) -> a <= n <= b ->
  Forall (fun s => clean s = true) ns -> (In (name n) ns <-> S n) -> (says a b name (join ", " ns) n <-> S n).
Proof.
  intros Hc Hn F HS. unfold says. destruct (join_special ns F) as (J1 & J2 & J3).
  apply String.eqb_neq in J1, J2. rewrite J1, J2, J3. rewrite (In_parts_join name a b) by auto. tauto.
Qed.
Lemma says_all_but name a b n ns (S : Z -> Prop) :
  (forall m, a <= m <= b -> clean (name m) = true) -> a <= n <= b ->
  Forall (fun s => clean s = true) ns -> (In (name n) ns <-> ~ S n) -> (S n \/ ~ S n) ->
  (says a b name ("all but " ++ join ", " ns) n <-> S n).
Proof.
  intros Hc Hn F HS D. unfold says. rewrite prefix_app.
  change (String.eqb ("all but " ++ join ", " ns) "*") with false.
  change (String.eqb ("all but " ++ join ", " ns) "Empty") with false. cbv iota.
  pose proof (substring_drop "all but " (join ", " ns)) as X. change (String.length "all but ") with 8%nat in X.
  rewrite X. rewrite (In_parts_join name a b) by auto. tauto.
Qed.

Lemma mem_dec x l : mem x l \/ ~ mem x l.
Proof.
  induction l as [|i l IH]; [right; rewrite mem_nil; auto|]. rewrite mem_cons.
  destruct IH; [auto|]. destruct (Z_le_dec (lo i) x), (Z_le_dec x (hi i)); intuition lia.
Qed.
Lemma in_names (name : Z -> string) a b l n : (forall x y, a <= x <= b -> a <= y <= b -> name x = name y -> x = y) ->
  (forall x, mem x l -> a <= x <= b) -> a <= n <= b -> (In (name n) (map name (elems l)) <-> mem n l).
Proof.
  intros Inj R Hn. rewrite in_map_iff. split.
  - intros [x [E H]]. apply elems_mem in H. apply Inj in E; auto. subst; auto.
  - intros H. exists n. split; auto. apply elems_mem; auto.
Qed.
Lemma clean_names (name : Z -> string) a b l : (forall x, a <= x <= b -> clean (name x) = true) ->
  (forall x, mem x l -> a <= x <= b) -> Forall (fun s => clean s = true) (map name (elems l)).
Proof.
  intros Hc R. apply Forall_forall. intros s Hs. apply in_map_iff in Hs as [x [<- H]]. apply elems_mem in H. auto.
Qed.
Lemma in_whole a b x : mem x (get_interval_set a b) <-> a <= x <= b.
Proof. unfold get_interval_set. rewrite mem_cons, mem_nil. simpl. tauto. Qed.

(** Every set of protocols (canonical, within 0..255) has a printed form, and that form says
    exactly which protocol numbers are in the set. *)
Theorem C06_protocol_text_denotes_the_set : forall p, ordered p -> (forall x, denot p x -> 0 <= x <= 255) ->
  exists l text, run p = Some l /\ pr_str l = Some text /\
    forall n, 0 <= n <= 255 -> (says 0 255 pname text n <-> denot p n).
Proof.
  intros p Hp R. destruct (run_ok p Hp) as (l & E & C & M). exists l.
  assert (R' : forall x, mem x l -> 0 <= x <= 255) by (intros x Hx; apply R, M; auto).
  unfold pr_str, pr_is_whole. destruct (iset_eqb l whole_protocols) eqn:W.
  { exists "*". split; auto. split; auto. intros n Hn. apply iset_eqb_eq in W. rewrite <- M, W. unfold whole_protocols.
    rewrite in_whole. unfold says. simpl. tauto. }
  destruct (iset_bool l) eqn:B; cbn [negb].
  2:{ exists "Empty". split; auto. split; auto. intros n Hn. rewrite <- M. unfold says. simpl.
      destruct l; [rewrite mem_nil; tauto|discriminate]. }
  assert (NM : forall m, (forall x, mem x m -> 0 <= x <= 255) -> canonical m -> pr_names m = Some (map pname (elems m))).
  { intros m Hm Cm. unfold pr_names. apply (names_elems _ pname (fun i => (lo i >=? 0) && (hi i <=? 255))).
    - intros i Hi. pose proof (canonical_in _ _ Cm Hi).
      assert (0 <= lo i <= 255) by (apply Hm; exists i; split; auto; lia).
      assert (0 <= hi i <= 255) by (apply Hm; exists i; split; auto; lia). lia.
    - intros x Hx. rewrite get_protocol_name_eq by auto. cbn [bind].
      pose proof (pname_clean x (Hm x Hx)) as Cl. apply clean_inv in Cl as (_ & _ & _ & _ & Cl).
      apply String.eqb_neq in Cl. rewrite Cl. reflexivity. }
  destruct (iset_sub_ok l whole_protocols) as (C' & M' & _); [apply canonical_singleton; lia|auto|].
  assert (R2 : forall x, mem x (iset_sub whole_protocols l) -> 0 <= x <= 255).
  { intros x Hx. apply M' in Hx as [Hx _]. apply in_whole in Hx. auto. }
  unfold pr_compl_names. rewrite !NM by auto. cbn [bind].
  destruct (Nat.leb _ _).
  - eexists. split; [auto|]. split; [reflexivity|]. intros n Hn. rewrite <- M. apply (says_join _ _ _ _ _ (fun k => mem k l)); auto using pname_clean.
    + eapply clean_names; eauto using pname_clean.
    + apply (in_names pname 0 255); auto using pname_inj.
  - eexists. split; [auto|]. split; [reflexivity|]. intros n Hn. rewrite <- M.
    apply (says_all_but _ _ _ _ _ (fun k => mem k l)); auto using pname_clean, mem_dec.
    + eapply clean_names; eauto using pname_clean.
    + rewrite (in_names pname 0 255) by auto using pname_inj. rewrite M'. unfold whole_protocols. rewrite in_whole. tauto.
Qed.

Theorem C06_method_text_denotes_the_set : forall p, ordered p -> (forall x, denot p x -> 0 <= x <= 8) ->
  exists l text, run p = Some l /\ m_str l = Some text /\
    forall n, 0 <= n <= 8 -> (says 0 8 mname text n <-> denot p n).
Proof.
  intros p Hp R. destruct (run_ok p Hp) as (l & E & C & M). exists l.
  assert (R' : forall x, mem x l -> 0 <= x <= 8) by (intros x Hx; apply R, M; auto).
  assert (Cn : forall x, 0 <= x <= 8 -> clean (mname x) = true) by (intros x Hx; apply mname_ok; auto).
  unfold m_str. destruct (iset_eqb l whole_methods) eqn:W.
  { exists "*". split; auto. split; auto. intros n Hn. apply iset_eqb_eq in W. rewrite <- M, W. unfold whole_methods.
    rewrite in_whole. unfold says. simpl. tauto. }
  destruct (iset_bool l) eqn:B; cbn [negb].
  2:{ exists "Empty". split; auto. split; auto. intros n Hn. rewrite <- M. unfold says. simpl.
      destruct l; [rewrite mem_nil; tauto|discriminate]. }
  assert (NM : m_names l = Some (map mname (elems l))).
  { unfold m_names. apply (names_elems _ mname (fun i => (lo i >=? 0) && (hi i <? 9))).
    - intros i Hi. pose proof (canonical_in _ _ C Hi).
      assert (0 <= lo i <= 8) by (apply R'; exists i; split; auto; lia).
      assert (0 <= hi i <= 8) by (apply R'; exists i; split; auto; lia). lia.
    - intros x Hx. apply mname_ok; auto. }
  assert (Nd : NoDup (map mname (elems l))).
  { pose proof (elems_NoDup l C) as N.
    assert (Q : forall x, In x (elems l) -> 0 <= x <= 8) by (intros x Hx; apply R', elems_mem; auto).
    revert N Q. generalize (elems l). induction l0 as [|x t IH]; intros N Q; simpl; [constructor|]. inversion N; subst.
    constructor; [|apply IH; auto; intros; apply Q; simpl; auto]. intros H. apply in_map_iff in H as [y [Ey Hy]].
    apply mname_inj in Ey; [subst; auto|apply Q; simpl; auto|apply Q; simpl; auto]. }
  assert (All : forall s, In s all_methods <-> exists n, 0 <= n <= 8 /\ s = mname n).
  { intros s. split.
    - intros H. unfold all_methods in H. simpl in H.
      decompose [or] H; subst; try tauto; [exists 0|exists 1|exists 2|exists 3|exists 4|exists 5|exists 6|exists 7|exists 8]; split; try lia; reflexivity.
    - intros [n [Hn ->]]. pose proof (mname_ok n Hn) as (_ & _ & H). unfold py_nth in H.
      destruct (_ || _) in H; [discriminate|]. apply nth_error_In in H. auto. }
  assert (CM : m_compl_names l = Some (filter (fun y => negb (smem y (map mname (elems l)))) all_methods)).
  { unfold m_compl_names. rewrite NM. cbn [bind]. apply removes_ok; auto.
    - unfold all_methods. repeat constructor; simpl; intuition discriminate.
    - intros s Hs. apply in_map_iff in Hs as [x [<- Hx]]. apply All. exists x. split; auto. apply R', elems_mem; auto. }
  rewrite NM, CM. cbn [bind]. destruct (Nat.leb _ _).
  - eexists. split; [auto|]. split; [reflexivity|]. intros n Hn. rewrite <- M. apply (says_join _ _ _ _ _ (fun k => mem k l)); auto.
    + eapply clean_names; eauto.
    + apply (in_names mname 0 8); auto using mname_inj.
  - eexists. split; [auto|]. split; [reflexivity|]. intros n Hn. rewrite <- M.
    apply (says_all_but _ _ _ _ _ (fun k => mem k l)); auto using mem_dec.
    + apply Forall_forall. intros s Hs. apply filter_In in Hs as [Hs _]. apply All in Hs as [x [Hx ->]]. auto.
    + rewrite filter_In, negb_true_iff, smem_false. rewrite (in_names mname 0 8) by auto using mname_inj.
      rewrite All. split; [tauto|]. intros H. split; auto. eauto.
Qed.

(** Histories of add/remove on protocol sets, by number or by name. *)
Inductive prop_op := RAdd (p : protocol) | RRemove (p : protocol).
Definition pr_step (acc : option iset) (o : prop_op) : option iset :=
  bind acc (fun l => match o with RAdd p => pr_add l p | RRemove p => pr_remove l p end).
(** The number meant by an argument: itself, its table entry, or its decimal value; in 0..255. *)
Definition means (p : protocol) (n : Z) : Prop :=
  0 <= n <= 255 /\
  match p with
  | ProtoNum m => m = n
  | ProtoName s => In (s, n) name_to_number \/ ((forall k, ~ In (s, k) name_to_number) /\ s = str_of_Z n)
  end.

Lemma assoc_s_none {A} s (l : list (string * A)) : (forall k, ~ In (s, k) l) -> assoc_s s l = None.
Proof.
  induction l as [|[t v] l IH]; intros H; simpl; auto. destruct (String.eqb_spec s t).
  - subst. exfalso. apply (H v). simpl; auto.
  - apply IH. intros k Hk. apply (H k). simpl; auto.
Qed.
Lemma name_table_functional :
  forallb (fun p => match assoc_s (fst p) name_to_number with Some n => (n =? snd p) && is_valid_protocol n | None => false end)
          name_to_number = true.
Proof. vm_compute. reflexivity. Qed.
Lemma assoc_table s n : In (s, n) name_to_number -> assoc_s s name_to_number = Some n /\ 0 <= n <= 255.
Proof.
  intros H. pose proof name_table_functional as T. rewrite forallb_forall in T. specialize (T _ H). cbn [fst snd] in T.
  destruct (assoc_s s name_to_number) as [m|]; [|discriminate]. apply andb_true_iff in T as [T1 T2].
  unfold is_valid_protocol in T2. assert (m = n) by lia. subst. split; auto. lia.
Qed.
Lemma means_number p n : means p n -> get_protocol_number p = Some n /\ is_valid_protocol n = true.
Proof.
  intros [R H]. assert (V : is_valid_protocol n = true) by (unfold is_valid_protocol; lia). split; auto.
  destruct p as [m|s]; cbn [get_protocol_number]; [congruence|]. destruct H as [H|[H1 H2]].
  - apply assoc_table in H as [-> _]. auto.
  - rewrite assoc_s_none by auto. subst s. rewrite Z_of_str_of_Z, V. reflexivity.
Qed.

Definition op_proto (o : prop_op) := match o with RAdd p | RRemove p => p end.
Fixpoint history (ops : list (prop_op * Z)) (n : Z) : Prop :=     (* newest first *)
  match ops with
  | [] => False
  | (RAdd _, m) :: t => n = m \/ history t n
  | (RRemove _, m) :: t => n <> m /\ history t n
  end.
Theorem C06_protocol_history_exact : forall ops, (forall o m, In (o, m) ops -> means (op_proto o) m) ->
  exists l, fold_right (fun om acc => pr_step acc (fst om)) (Some (pr_new false)) ops = Some l /\
    forall p n, means p n -> exists b, pr_contains l p = Some b /\ (b = true <-> history ops n).
Proof.
  intros ops H. assert (X : exists l, fold_right (fun om acc => pr_step acc (fst om)) (Some (pr_new false)) ops = Some l /\
     canonical l /\ forall n, mem n l <-> history ops n).
  { induction ops as [|[o m] ops IH].
    - exists []. split; [reflexivity|]. split; [exact I|]. intros. rewrite mem_nil. simpl. tauto.
    - destruct IH as (l & E & C & M); [intros; apply H; simpl; auto|]. cbn [fold_right]. rewrite E. cbn [pr_step bind fst].
      assert (Q : means (op_proto o) m) by (apply H; simpl; auto). destruct (means_number _ _ Q) as [Q1 Q2].
      destruct o as [p|p]; cbn [op_proto] in Q1; unfold pr_add, pr_remove; rewrite Q1; cbn [bind]; rewrite Q2; cbn [negb history].
      + destruct (add_interval_ok l (Ivl m m) C) as (r & Er & Cr & Mr & _); [simpl; lia|]. exists r. split; auto. split; auto.
        intros n. rewrite Mr, M. simpl. intuition lia.
      + destruct (add_hole_ok l (Ivl m m) C) as (Cr & Mr & _); [simpl; lia|]. eexists. split; [reflexivity|]. split; auto.
        intros n. rewrite Mr, M. simpl. intuition lia. }
  destruct X as (l & E & C & M). exists l. split; auto. intros p n Hp. destruct (means_number _ _ Hp) as [Q1 Q2].
  unfold pr_contains. rewrite Q1. cbn [bind]. destruct (iset_contains_ok l n C) as (b & Eb & Hb). exists b. split; auto.
  rewrite Hb. apply M.
Qed.

(** Illegal protocols are rejected. *)
Theorem C06_illegal_protocol_rejected : forall l n, ~ (0 <= n <= 255) ->
  pr_add l (ProtoNum n) = None /\ pr_remove l (ProtoNum n) = None /\
  forall s, (forall k, ~ In (s, k) name_to_number) -> (Z_of_str s = None \/ Z_of_str s = Some n) ->
    pr_add l (ProtoName s) = None /\ pr_remove l (ProtoName s) = None.
Proof.
  intros l n H. assert (V : is_valid_protocol n = false) by (unfold is_valid_protocol; lia).
  unfold pr_add, pr_remove. cbn [get_protocol_number bind]. rewrite V. split; auto. split; auto.
  intros s Hs Hz. rewrite (assoc_s_none s) by auto. destruct Hz as [->| ->]; [auto|]. rewrite V. auto.
Qed.

Example C06_example_text : pr_str [Ivl 0 5; Ivl 7 255] = Some "all but TCP" /\ pr_str [Ivl 6 6; Ivl 17 17; Ivl 200 200] = Some "TCP, UDP, 200" /\
  m_str [Ivl 0 1; Ivl 3 3] = Some "GET, HEAD, PUT" /\ m_str [Ivl 1 8] = Some "all but GET".
Proof. repeat split; vm_compute; reflexivity. Qed.
Example C06_example_history : means (ProtoName "TCP") 6 /\ means (ProtoName "200") 200 /\ means (ProtoNum 17) 17.
Proof.
  split; [|split]; split; try lia; auto.
  - left. simpl. auto 10.
  - right. split; [|reflexivity]. intros k H. simpl in H. repeat (destruct H as [H|H]; [discriminate|]). destruct H.
Qed.

(** ** C07 *)
Theorem C07_names_map_into_range : forall s n, In (s, n) name_to_number ->
  get_protocol_number (ProtoName s) = Some n /\ 0 <= n <= 255 /\
  exists t, get_protocol_name n = Some t /\ get_protocol_number (ProtoName t) = Some n.
Proof.
  intros s n H. destruct (assoc_table s n H) as [A B]. cbn [get_protocol_number]. rewrite A. split; auto. split; auto.
  exists (pname n). split; [apply get_protocol_name_eq; auto|apply pname_number; auto].
Qed.
Theorem C07_numbers_round_trip : forall n, 0 <= n <= 255 ->
  exists t, get_protocol_name n = Some t /\ get_protocol_number (ProtoName t) = Some n /\
    (is_standard_protocol n = false -> t = str_of_Z n) /\ (is_standard_protocol n = true -> In (n, t) number_to_name).
Proof.
  intros n H. exists (pname n). split; [apply get_protocol_name_eq; auto|]. split; [apply pname_number; auto|].
  unfold is_standard_protocol, pname. split.
  - destruct (assoc_z n number_to_name); [discriminate|auto].
  - destruct (assoc_z n number_to_name) as [s|] eqn:E; [|discriminate]. intros _. revert E. generalize number_to_name.
    induction l as [|[k v] l IH]; simpl; [discriminate|]. destruct (Z.eqb_spec n k).
    + intros E. injection E as <-. subst. auto.
    + auto.
Qed.
Theorem C07_out_of_range_rejected : forall n, ~ (0 <= n <= 255) -> get_protocol_name n = None.
Proof. intros n H. unfold get_protocol_name, is_valid_protocol. replace ((n >=? 0) && (n <=? 255)) with false by lia. reflexivity. Qed.
Example C07_example : get_protocol_number (ProtoName "IPTM") = Some 84 /\ get_protocol_number (ProtoName "TTP") = Some 84 /\
  get_protocol_name 84 = Some "IPTM" /\ get_protocol_name 200 = Some "200".
Proof. repeat split; vm_compute; reflexivity. Qed.

Print Assumptions C04_printed_text_denotes_the_set.
Print Assumptions C04_different_sets_print_differently.
Print Assumptions C05_port_sets_track_history.
Print Assumptions C05_port_set_equality_exact.
Print Assumptions C05_union_drops_exclusions_refuted.
Print Assumptions C06_protocol_text_denotes_the_set.
Print Assumptions C06_method_text_denotes_the_set.
Print Assumptions C06_protocol_history_exact.
Print Assumptions C06_illegal_protocol_rejected.
Print Assumptions C07_names_map_into_range.
Print Assumptions C07_numbers_round_trip.
Print Assumptions C07_out_of_range_rejected.
