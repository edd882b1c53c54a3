(** * Facts about the texts of IP blocks. *)
From Coq Require Import ZArith List Bool Arith Lia String Ascii.
From Verif Require Import IntervalModel IntervalFacts TextModel TextFacts PortProtoModel PortProtoFacts PeerModel PeerFacts IpTextModel.
Import ListNotations.
Local Open Scope string_scope.
Local Open Scope list_scope.
Local Open Scope nat_scope.

(** ** Readers *)
(** The value of digits. *)
Definition value (B : Z) (l : list Z) : Z := fold_left (fun a d => a * B + d)%Z l 0%Z.
(** A dotted quad. *)
Definition read4 (t : string) : option Z :=
  match mapM Z_of_str (split "." t) with
  | Some [a; b; c; d] => if forallb (fun x => (0 <=? x)%Z && (x <=? 255)%Z) [a; b; c; d] then Some (value 256 [a; b; c; d]) else None
  | _ => None
  end.
(** A hexadecimal digit, and one to four of them. *)
Definition hex_val (c : ascii) : option Z :=
  let n := Z.of_nat (nat_of_ascii c) in
  if ((48 <=? n) && (n <=? 57))%Z then Some (n - 48)%Z else if ((97 <=? n) && (n <=? 102))%Z then Some (n - 87)%Z else None.
Definition read_hex (t : string) : option Z :=
  let l := list_ascii_of_string t in
  if (1 <=? List.length l) && (List.length l <=? 4) then bind (mapM hex_val l) (fun ds => Some (value 16 ds)) else None.
(** An IPv6 address (RFC 4291, section 2.2, forms 1 and 2): eight groups, or groups, "::", groups, less than eight. *)
Fixpoint cut (parts : list string) : list string * option (list string) :=
  match parts with
  | [] => ([], None)
  | p :: r => if String.eqb p "" then ([], Some r) else let (h, t) := cut r in (p :: h, t)
  end.
Definition no_last (l : list string) : list string := match l with [""] => [] | _ => l end.
Definition groups (parts : list string) : option (list string) :=
  let fill h t := if List.length h + List.length t <? 8 then Some (h ++ repeat "0" (8 - (List.length h + List.length t)) ++ t) else None in
  match parts with
  | "" :: "" :: r => fill [] (no_last r)
  | _ => match cut parts with
         | (h, None) => if List.length h =? 8 then Some h else None
         | (h, Some t) => fill h (no_last t)
         end
  end.
Definition read6 (t : string) : option Z := bind (groups (split ":" t)) (fun gs => bind (mapM read_hex gs) (fun l => Some (value 65536 l))).
(** An address, as a position. *)
Definition read_ip (t : string) : option Z := if has_char ":" t then option_map (fun n => v6min + n)%Z (read6 t) else read4 t.
(** An address, a range or a network. *)
Definition read_block (t : string) : option ivl :=
  match split "/" t with
  | [a; n] => bind (read_ip a) (fun x => bind (Z_of_str n) (fun k =>
      let six := has_char ":" a in let y := if six then (x - v6min)%Z else x in
      if ((0 <=? k) && (k <=? width six))%Z then Some (cidr_ivl (Cidr six y k)) else None))
  | _ => match split "-" t with
         | [a] => bind (read_ip a) (fun x => Some (Ivl x x))
         | [a; b] => bind (read_ip a) (fun x => bind (read_ip b) (fun y => Some (Ivl x y)))
         | _ => None
         end
  end.
(** The address is in one of the comma separated items. *)
Definition says_ip (t : string) (y : Z) : Prop := exists s i, In s (split "," t) /\ read_block s = Some i /\ (lo i <= y <= hi i)%Z.

(** ** Digits *)
Lemma value_snoc : forall B l d, value B (l ++ [d]) = (value B l * B + d)%Z.
Proof. intros. unfold value. rewrite fold_left_app. reflexivity. Qed.
Lemma value_digits : forall B k n, (1 < B)%Z -> (0 <= n < B ^ Z.of_nat k)%Z -> value B (digits B k n) = n.
Proof.
  intros B k. induction k as [|k IH]; intros n HB Hn.
  - cbn in Hn. cbn. lia.
  - cbn [digits]. rewrite value_snoc, IH.
    + pose proof (Z.div_mod n B ltac:(lia)). lia.
    + exact HB.
    + rewrite Nat2Z.inj_succ, Z.pow_succ_r in Hn by lia. split; [apply Z.div_pos; lia|]. apply Z.div_lt_upper_bound; lia.
Qed.
Lemma digits_range : forall B k n d, (0 < B)%Z -> In d (digits B k n) -> (0 <= d < B)%Z.
Proof.
  intros B k. induction k as [|k IH]; intros n d HB H; [destruct H|]. cbn [digits] in H. apply in_app_or in H as [H|[<-|[]]]; [exact (IH _ _ HB H)|]. apply Z.mod_pos_bound. lia.
Qed.
Lemma digits_len : forall B k n, List.length (digits B k n) = k.
Proof. intros B k. induction k as [|k IH]; intros n; [reflexivity|]. cbn [digits]. rewrite app_length, IH. cbn. lia. Qed.
Lemma mapM_map : forall {A B C} (f : B -> option C) (g : A -> B) (h : A -> C) l, (forall x, In x l -> f (g x) = Some (h x)) -> mapM f (map g l) = Some (map h l).
Proof. induction l as [|x l IH]; intros H; [reflexivity|]. cbn [map mapM]. rewrite H by (left; reflexivity). cbn [bind]. rewrite IH by (intros y Hy; apply H; right; exact Hy). reflexivity. Qed.

(** ** IPv4 *)
Lemma digits_free : forall c s, is_digit c = false -> all_digits s = true -> has_char c s = false.
Proof.
  intros c s Hc H. induction s as [|a s IH]; [reflexivity|]. cbn in H. apply andb_true_iff in H as [H1 H2]. cbn [has_char]. rewrite (IH H2).
  destruct (Ascii.eqb_spec a c) as [->|]; [congruence|]. destruct (Ascii.eqb_spec c a) as [->|]; [congruence|]. reflexivity.
Qed.
Lemma text4_ok : forall n, (0 <= n <= v4max)%Z -> read4 (text4 n) = Some n /\ forall c, is_digit c = false -> c <> "."%char -> has_char c (text4 n) = false.
Proof.
  intros n Hn. pose proof consts as (Q1 & _ & _). unfold text4. set (ds := digits 256 4 n).
  assert (Rd : forall d, In d ds -> (0 <= d < 256)%Z) by (intros d Hd; exact (digits_range 256 4 n d ltac:(lia) Hd)).
  assert (Fr : forall c d, is_digit c = false -> In d ds -> has_char c (str_of_Z d) = false) by (intros c d Hc Hd; apply digits_free; [exact Hc|]; apply str_of_Z_digits; specialize (Rd d Hd); lia).
  assert (Ln : List.length ds = 4) by apply digits_len. assert (Vl : value 256 ds = n) by (apply value_digits; [lia|]; change (256 ^ Z.of_nat 4)%Z with 4294967296%Z; lia). clearbody ds. split.
  - unfold read4. rewrite (split_join "." (map str_of_Z ds)).
    + rewrite (mapM_map _ _ (fun x => x)) by (intros x _; apply Z_of_str_of_Z). rewrite map_id. destruct ds as [|a [|b [|c [|d [|e ds]]]]]; try discriminate Ln.
      rewrite (proj2 (forallb_forall _ _)); [rewrite Vl; reflexivity|]. intros x Hx. specialize (Rd x Hx). lia.
    + destruct ds; [discriminate Ln|discriminate].
    + apply Forall_forall. intros s Hs. apply in_map_iff in Hs as (d & <- & Hd). apply Fr; [reflexivity|exact Hd].
  - intros c Hc Nc. assert (G : forall l, (forall d, In d l -> In d ds) -> has_char c (join "." (map str_of_Z l)) = false).
    { induction l as [|d l IH]; intros Hl; [reflexivity|]. destruct l as [|e l].
      - cbn. apply Fr; [exact Hc|apply Hl; left; reflexivity].
      - change (join "." (map str_of_Z (d :: e :: l))) with (str_of_Z d ++ "." ++ join "." (map str_of_Z (e :: l)))%string. rewrite !has_char_app.
        rewrite Fr by (exact Hc || (apply Hl; left; reflexivity)). rewrite IH by (intros x Hx; apply Hl; right; exact Hx). cbn [has_char orb]. destruct (Ascii.eqb_spec "." c) as [E|]; [congruence|]. destruct (Ascii.eqb_spec c ".") as [E|]; [congruence|]. reflexivity. }
    apply G. auto.
Qed.

(** ** IPv6 *)
Definition hexy (c : ascii) : bool := match hex_val c with Some _ => true | None => false end.
Fixpoint all_hex (s : string) : bool := match s with EmptyString => true | String c r => hexy c && all_hex r end.
Lemma hex_char_ok : forall d, (0 <= d < 16)%Z -> hex_val (hex_char d) = Some d.
Proof.
  intros d Hd. assert (H : In d (map Z.of_nat (seq 0 16))) by (apply in_map_iff; exists (Z.to_nat d); split; [lia|apply in_seq; lia]).
  cbn [map seq] in H. repeat (destruct H as [<-|H]; [reflexivity|]). destruct H.
Qed.
Lemma value_0 : forall B l, value B (0%Z :: l) = value B l.
Proof. reflexivity. Qed.
Lemma strip0_ok : forall B l, value B (strip0 l) = value B l /\ (forall d, In d (strip0 l) -> In d l) /\ List.length (strip0 l) <= List.length l /\ (l <> [] -> strip0 l <> []).
Proof.
  intros B l. induction l as [|x [|y l] IH]; [cbn; repeat split; auto|cbn; repeat split; auto|].
  change (strip0 (x :: y :: l)) with (if (x =? 0)%Z then strip0 (y :: l) else x :: y :: l). destruct (Z.eqb_spec x 0) as [->|N].
  - destruct IH as (I1 & I2 & I3 & I4). repeat split.
    + rewrite I1. reflexivity.
    + intros d Hd. right. exact (I2 d Hd).
    + cbn [List.length] in *. lia.
    + intros _. apply I4. discriminate.
  - repeat split; auto.
Qed.
Lemma hex_ok : forall n, (0 <= n < 65536)%Z -> read_hex (hex n) = Some n /\ all_hex (hex n) = true /\ hex n <> "".
Proof.
  intros n Hn. unfold hex. pose proof (strip0_ok 16 (digits 16 4 n)) as (S1 & S2 & S3 & S4). rewrite digits_len in S3. rewrite value_digits in S1 by (lia || (change (16 ^ Z.of_nat 4)%Z with 65536%Z; lia)).
  assert (Rd : forall d, In d (strip0 (digits 16 4 n)) -> (0 <= d < 16)%Z) by (intros d Hd; apply (digits_range 16 4 n); [lia|exact (S2 d Hd)]).
  assert (Ne : strip0 (digits 16 4 n) <> []) by (apply S4; intros E; apply (f_equal (@List.length Z)) in E; rewrite digits_len in E; discriminate E).
  generalize dependent (strip0 (digits 16 4 n)). intros l S1 S2 S3 S4 Rd Ne.
  assert (Ch : list_ascii_of_string (fold_right (fun d s => String (hex_char d) s) "" l) = map hex_char l) by (clear; induction l as [|d l IH]; [reflexivity|]; cbn [fold_right list_ascii_of_string map]; rewrite IH; reflexivity).
  split; [|split].
  - unfold read_hex. rewrite Ch, map_length. rewrite (mapM_map _ _ (fun x => x)) by (intros d Hd; apply hex_char_ok; exact (Rd d Hd)). rewrite map_id.
    rewrite (proj2 (Nat.leb_le _ 4) S3). destruct l as [|x l]; [congruence|]. cbn [List.length Nat.leb andb bind]. rewrite S1. reflexivity.
  - clear - Rd. induction l as [|d l IH]; [reflexivity|]. cbn [fold_right all_hex]. unfold hexy. rewrite hex_char_ok by (apply Rd; left; reflexivity). apply IH. intros x Hx. apply Rd. right. exact Hx.
  - destruct l; [congruence|]. cbn. discriminate.
Qed.
Lemma hex_free : forall c s, hexy c = false -> all_hex s = true -> has_char c s = false.
Proof.
  intros c s Hc H. induction s as [|a s IH]; [reflexivity|]. cbn [all_hex] in H. apply andb_true_iff in H as [H1 H2]. cbn [has_char]. rewrite (IH H2).
  destruct (Ascii.eqb_spec a c) as [->|]; [congruence|]. reflexivity.
Qed.

(** The chosen run is a run of "0". *)
Definition isrun (hs : list string) (s n : nat) : Prop := s + n <= List.length hs /\ forall j, s <= j < s + n -> nth_error hs j = Some "0".
Lemma run_fold : forall hs l pre best cur, hs = pre ++ l -> isrun hs (fst best) (snd best) ->
  (forall s n, cur = Some (s, n) -> s + n = List.length pre /\ isrun hs s n) ->
  let r := fst (fold_left run_step (combine (seq (List.length pre) (List.length l)) l) (best, cur)) in isrun hs (fst r) (snd r).
Proof.
  intros hs l. induction l as [|h l IH]; intros pre best cur E Hb Hc; [exact Hb|]. cbn [List.length seq combine fold_left].
  assert (E' : hs = (pre ++ [h]) ++ l) by (rewrite <- app_assoc; exact E). assert (Lp : S (List.length pre) = List.length (pre ++ [h])) by (rewrite app_length; cbn; lia).
  change (run_step (best, cur) (List.length pre, h)) with (if String.eqb h "0" then
      let c := match cur with None => (List.length pre, 1) | Some (s, n) => (s, S n) end in
      ((if snd best <? snd c then c else best), Some c)
    else (best, None)). rewrite Lp. destruct (String.eqb_spec h "0") as [->|N].
  - set (c := match cur with None => (List.length pre, 1) | Some (s, n) => (s, S n) end).
    assert (Hn : nth_error hs (List.length pre) = Some "0") by (rewrite E, nth_error_app2, Nat.sub_diag by lia; reflexivity).
    assert (Lh : List.length hs = List.length pre + S (List.length l)) by (rewrite E, app_length; reflexivity).
    assert (Rc : fst c + snd c = S (List.length pre) /\ isrun hs (fst c) (snd c)).
    { unfold c. destruct cur as [[s n]|]; cbn [fst snd].
      - destruct (Hc s n eq_refl) as (C1 & C2 & C3). split; [lia|]. split; [lia|]. intros j Hj. destruct (Nat.eq_dec j (List.length pre)) as [->|]; [exact Hn|apply C3; lia].
      - split; [lia|]. split; [lia|]. intros j Hj. replace j with (List.length pre) by lia. exact Hn. }
    apply IH; [exact E'| |].
    + destruct (snd best <? snd c); [exact (proj2 Rc)|exact Hb].
    + intros s n Q. injection Q as Q. rewrite Q in Rc. cbn [fst snd] in Rc. rewrite <- Lp. exact Rc.
  - apply IH; [exact E'|exact Hb|discriminate].
Qed.
Lemma best_run_ok : forall hs s n, best_run hs = (s, n) -> isrun hs s n.
Proof.
  intros hs s n E. pose proof (run_fold hs hs [] (0, 0) None eq_refl) as H. cbn [List.length] in H. unfold best_run in E. cbv zeta in H. rewrite E in H. apply H.
  - split; [cbn; lia|]. intros j Hj. cbn in Hj. lia.
  - discriminate.
Qed.
Lemma skipn_plus : forall {A} (l : list A) s n, skipn n (skipn s l) = skipn (s + n) l.
Proof. induction l as [|x l IH]; intros s n; [rewrite !skipn_nil; reflexivity|]. destruct s; [reflexivity|]. cbn. apply IH. Qed.
Lemma nth_same : forall {A} (l l' : list A), (forall j, nth_error l j = nth_error l' j) -> l = l'.
Proof.
  induction l as [|x l IH]; intros [|y l'] H; [reflexivity|discriminate (H 0)|discriminate (H 0)|]. f_equal; [injection (H 0) as E; exact E|]. apply IH. intros j. exact (H (S j)).
Qed.
Lemma nth_rep : forall {A} (x : A) n j, j < n -> nth_error (repeat x n) j = Some x.
Proof. induction n as [|n IH]; intros j H; [lia|]. destruct j; [reflexivity|]. cbn. apply IH. lia. Qed.
Lemma run_split : forall hs s n, isrun hs s n -> hs = firstn s hs ++ repeat "0" n ++ skipn (s + n) hs.
Proof.
  intros hs s n (H1 & H2). rewrite <- (firstn_skipn s hs) at 1. f_equal. rewrite <- (firstn_skipn n (skipn s hs)) at 1. rewrite skipn_plus. f_equal.
  apply nth_same. intros j. destruct (Nat.ltb_spec j n) as [Lj|Lj].
  - assert (E1 : nth_error (repeat "0" n) j = Some "0") by (apply nth_rep; exact Lj). rewrite E1. rewrite <- (H2 (s + j)) by lia.
    rewrite <- (firstn_skipn s hs) at 2. rewrite nth_error_app2 by (rewrite firstn_length; lia). rewrite firstn_length, Nat.min_l by lia. replace (s + j - s) with j by lia.
    rewrite <- (firstn_skipn n (skipn s hs)) at 2. rewrite nth_error_app1; [reflexivity|]. rewrite firstn_length, skipn_length. lia.
  - rewrite !(proj2 (nth_error_None _ j)); [reflexivity| |]; [rewrite repeat_length; lia|rewrite firstn_length, skipn_length; lia].
Qed.
Definition full (l : list string) : Prop := forall s, In s l -> s <> "".
Lemma cut_full : forall h t, full h -> cut (h ++ t) = (h ++ fst (cut t), snd (cut t)).
Proof.
  induction h as [|x h IH]; intros t Hf; [cbn; destruct (cut t); reflexivity|]. cbn [app cut]. destruct (String.eqb_spec x "") as [E|_]; [destruct (Hf x (or_introl eq_refl) E)|].
  rewrite IH by (intros s Hs; apply Hf; right; exact Hs). reflexivity.
Qed.
Lemma no_last_full : forall t, full t -> no_last t = t.
Proof. intros [|x [|y t]] Hf; try reflexivity; destruct x; try reflexivity. destruct (Hf "" (or_introl eq_refl) eq_refl). Qed.
Lemma groups_full : forall h r, full h -> h <> [] -> groups (h ++ r) = match cut (h ++ r) with
         | (h', None) => if List.length h' =? 8 then Some h' else None
         | (h', Some t) => let t := no_last t in if List.length h' + List.length t <? 8 then Some (h' ++ repeat "0" (8 - (List.length h' + List.length t)) ++ t) else None
         end.
Proof. intros [|x h] r Hf Ne; [congruence|]. unfold groups. cbn [app]. destruct x; [destruct (Hf "" (or_introl eq_refl) eq_refl)|]. reflexivity. Qed.
Lemma compress_ok : forall hs, List.length hs = 8 -> full hs -> groups (compress hs) = Some hs /\ 2 <= List.length (compress hs) /\ forall s, In s (compress hs) -> In s hs \/ s = "".
Proof.
  intros hs L8 Hf. unfold compress. destruct (best_run hs) as [s n] eqn:E. apply best_run_ok in E. pose proof (run_split hs s n E) as Sp. destruct E as (E1 & E2). destruct (Nat.ltb_spec 1 n) as [Hn|Hn].
  2:{ split; [|split; [lia|auto]]. rewrite <- (app_nil_r hs) at 1. rewrite groups_full by (exact Hf || (intros ->; discriminate)). rewrite cut_full by exact Hf. cbn [cut fst snd]. rewrite app_nil_r, L8. reflexivity. }
  rewrite L8 in E1 |- *. assert (F1 : full (firstn s hs)) by (intros x Hx; apply Hf; rewrite <- (firstn_skipn s hs); apply in_or_app; left; exact Hx).
  assert (F2 : full (skipn (s + n) hs)) by (intros x Hx; apply Hf; rewrite <- (firstn_skipn (s + n) hs); apply in_or_app; right; exact Hx).
  assert (L1 : List.length (firstn s hs) = s) by (rewrite firstn_length; lia). assert (L2 : List.length (skipn (s + n) hs) = 8 - (s + n)) by (rewrite skipn_length; lia).
  set (hs' := if s + n =? 8 then hs ++ [""] else hs). set (t := skipn (s + n) hs').
  assert (Q1 : firstn s hs' = firstn s hs) by (unfold hs'; destruct (s + n =? 8); [|reflexivity]; rewrite firstn_app; replace (s - List.length hs) with 0 by lia; apply app_nil_r).
  assert (Q2 : no_last t = skipn (s + n) hs /\ t <> []).
  { unfold t, hs'. destruct (Nat.eqb_spec (s + n) 8) as [E8|E8].
    - rewrite E8. rewrite skipn_app, L8. rewrite (skipn_all2 hs) by lia. cbn. split; [reflexivity|discriminate].
    - split; [apply no_last_full; exact F2|]. intros E. rewrite E in L2. cbn [List.length] in L2. lia. }
  assert (Q3 : forall x, In x t -> In x hs \/ x = "").
  { intros x Hx. assert (Hx' : In x hs') by (rewrite <- (firstn_skipn (s + n) hs'); apply in_or_app; right; exact Hx). unfold hs' in Hx'. destruct (s + n =? 8); [|left; exact Hx']. apply in_app_or in Hx' as [Hx'|[<-|[]]]; auto. }
  rewrite Q1. destruct Q2 as (Q2 & Q4). clearbody t. assert (Fill : firstn s hs ++ repeat "0" (8 - (s + (8 - (s + n)))) ++ skipn (s + n) hs = hs) by (replace (8 - (s + (8 - (s + n)))) with n by lia; symmetry; exact Sp).
  destruct (Nat.eqb_spec s 0) as [->|Ns].
  - cbn [firstn app] in *. split; [|split].
    + unfold groups. rewrite Q2, L2. cbn [List.length]. rewrite (proj2 (Nat.ltb_lt _ 8)) by lia. cbn [app]. rewrite Fill. reflexivity.
    + cbn. lia.
    + intros x [<-|[<-|Hx]]; auto.
  - split; [|split].
    + rewrite groups_full; [|exact F1|intros Q; rewrite Q in L1; cbn in L1; lia]. rewrite cut_full by exact F1. cbn [cut fst snd app String.eqb]. rewrite app_nil_r. cbv zeta. rewrite Q2, L1, L2. rewrite (proj2 (Nat.ltb_lt _ 8)) by lia. rewrite Fill. reflexivity.
    + rewrite app_length. cbn [List.length app]. destruct t; [congruence|]. cbn. lia.
    + intros x Hx. apply in_app_or in Hx as [Hx|[<-|Hx]]; auto. left. rewrite <- (firstn_skipn s hs). apply in_or_app. left. exact Hx.
Qed.
Lemma join_free : forall c sep l, (forall s, In s l -> has_char c s = false) -> has_char c sep = false -> has_char c (join sep l) = false.
Proof.
  intros c sep l H Hs. induction l as [|x [|y l] IH]; [reflexivity|apply H; left; reflexivity|]. change (join sep (x :: y :: l)) with (x ++ sep ++ join sep (y :: l))%string.
  rewrite !has_char_app, Hs, (H x (or_introl eq_refl)). apply IH. intros s Hi. apply H. right. exact Hi.
Qed.
Lemma text6_ok : forall n, (0 <= n < 2 ^ 128)%Z -> read6 (text6 n) = Some n /\ has_char ":" (text6 n) = true /\ forall c, hexy c = false -> c <> ":"%char -> has_char c (text6 n) = false.
Proof.
  intros n Hn. unfold text6. set (ds := digits 65536 8 n).
  assert (Rd : forall d, In d ds -> (0 <= d < 65536)%Z) by (intros d Hd; exact (digits_range 65536 8 n d ltac:(lia) Hd)).
  assert (Ln : List.length (map hex ds) = 8) by (rewrite map_length; apply digits_len). assert (Vl : value 65536 ds = n) by (apply value_digits; [lia|]; change (65536 ^ Z.of_nat 8)%Z with (2 ^ 128)%Z; lia). clearbody ds.
  assert (Fl : full (map hex ds)) by (intros s Hs; apply in_map_iff in Hs as (d & <- & Hd); exact (proj2 (proj2 (hex_ok d (Rd d Hd))))).
  assert (Fr : forall c s, hexy c = false -> In s (compress (map hex ds)) -> has_char c s = false).
  { intros c s Hc Hs. apply (proj2 (proj2 (compress_ok _ Ln Fl))) in Hs as [Hs| ->]; [|reflexivity]. apply in_map_iff in Hs as (d & <- & Hd). apply hex_free; [exact Hc|exact (proj1 (proj2 (hex_ok d (Rd d Hd))))]. }
  pose proof (compress_ok _ Ln Fl) as (C1 & C2 & _). split; [|split].
  - unfold read6. rewrite (split_join ":" (compress (map hex ds))); [|intros Q; rewrite Q in C2; cbn in C2; lia|apply Forall_forall; intros s Hs; apply Fr; [reflexivity|exact Hs]].
    rewrite C1. cbn [bind]. rewrite (mapM_map _ _ (fun x => x)) by (intros d Hd; exact (proj1 (hex_ok d (Rd d Hd)))). rewrite map_id. cbn [bind]. rewrite Vl. reflexivity.
  - destruct (compress (map hex ds)) as [|a [|b l]]; try (cbn in C2; lia). change (join ":" (a :: b :: l)) with (a ++ ":" ++ join ":" (b :: l))%string. rewrite !has_char_app. cbn [has_char]. rewrite Ascii.eqb_refl. cbn. apply orb_true_r.
  - intros c Hc Nc. apply join_free; [intros s Hs; apply Fr; [exact Hc|exact Hs]|]. cbn [has_char]. destruct (Ascii.eqb_spec ":" c) as [E|]; [congruence|reflexivity].
Qed.

(** ** Addresses *)
Definition odd_char (c : ascii) : Prop := is_digit c = false /\ hexy c = false /\ c <> "."%char /\ c <> ":"%char.
Lemma ip_text_ok : forall y, vpos y -> read_ip (ip_text y) = Some y /\ has_char ":" (ip_text y) = negb (y <=? v4max)%Z /\ forall c, odd_char c -> has_char c (ip_text y) = false.
Proof.
  intros y Hy. pose proof consts as (Q1 & Q2 & Q3). unfold ip_text, read_ip. destruct (Z.leb_spec y v4max) as [L|L].
  - assert (Hy' : (0 <= y <= v4max)%Z) by (destruct Hy; lia). destruct (text4_ok y Hy') as (T1 & T2). rewrite (T2 ":"%char) by (reflexivity || discriminate). split; [exact T1|]. split; [reflexivity|].
    intros c (O1 & _ & O2 & _). exact (T2 c O1 O2).
  - assert (Hy' : (0 <= y - v6min < 2 ^ 128)%Z) by (change (2 ^ 128)%Z with 340282366920938463463374607431768211456%Z; destruct Hy; lia). destruct (text6_ok _ Hy') as (T1 & T2 & T3). rewrite T2, T1. split; [cbn [option_map]; f_equal; lia|].
    split; [reflexivity|]. intros c (_ & O1 & _ & O2). exact (T3 c O1 O2).
Qed.

(** ** Networks of a range *)
Lemma zeros_ok : forall p, (0 <= zeros p)%Z /\ exists q, Zpos p = (2 ^ zeros p * (2 * q + 1))%Z /\ (0 <= q)%Z.
Proof.
  induction p as [p IH|p IH|].
  - split; [cbn; lia|]. exists (Zpos p). cbn [zeros]. rewrite Z.pow_0_r. lia.
  - destruct IH as (Z1 & q & E & Hq). cbn [zeros]. split; [lia|]. exists q. split; [|exact Hq]. rewrite Z.pow_add_r by lia. change (2 ^ 1)%Z with 2%Z. rewrite Pos2Z.inj_xO, E. ring.
  - split; [cbn; lia|]. exists 0%Z. cbn. lia.
Qed.
Lemma right_zeros_ok : forall n bits, (0 <= bits)%Z -> (0 <= n < 2 ^ bits)%Z ->
  (0 <= right_zeros n bits <= bits)%Z /\ (2 ^ right_zeros n bits | n)%Z /\
  (right_zeros n bits < bits -> exists q, n = 2 ^ right_zeros n bits * (2 * q + 1))%Z /\
  (forall j, 0 <= j <= bits -> (2 ^ j | n) -> j <= right_zeros n bits)%Z.
Proof.
  intros n bits Hb Hn. destruct n as [|p|p]; [| |lia].
  - cbn. repeat split; try lia. apply Z.divide_0_r.
  - destruct (zeros_ok p) as (Z1 & q & E & Hq).
    assert (P : (0 < 2 ^ zeros p)%Z) by (apply Z.pow_pos_nonneg; lia).
    assert (Lz : (zeros p < bits)%Z) by (apply (Z.pow_lt_mono_r_iff 2); [lia|lia|]; nia).
    unfold right_zeros. rewrite Z.min_r by lia. repeat split; try lia.
    + exists (2 * q + 1)%Z. lia.
    + intros _. exists q. exact E.
    + intros j Hj Dv. destruct (Z.le_gt_cases j (zeros p)) as [|G]; [assumption|]. exfalso. rewrite E in Dv. replace j with (zeros p + (1 + (j - zeros p - 1)))%Z in Dv by lia. rewrite !Z.pow_add_r in Dv by lia.
      apply Z.mul_divide_cancel_l in Dv; [|lia]. destruct Dv as (k & Ek). change (2 ^ 1)%Z with 2%Z in Ek.
      assert (Q : (2 * q + 1 = 2 * (k * 2 ^ (j - zeros p - 1)))%Z) by lia. lia.
Qed.
Lemma divide_le : forall a b n, (0 <= a <= b)%Z -> (2 ^ b | n)%Z -> (2 ^ a | n)%Z.
Proof. intros a b n H D. apply (Z.divide_trans _ (2 ^ b)); [|exact D]. exists (2 ^ (b - a))%Z. rewrite <- Z.pow_add_r by lia. f_equal. lia. Qed.
(** One step. *)
Lemma step_ok : forall bits first last, (0 <= bits)%Z -> (0 <= first <= last)%Z -> (last < 2 ^ bits)%Z ->
  let m := Z.log2 (last - first + 1) in let k := Z.min (right_zeros first bits) m in
  (0 <= k <= m)%Z /\ (m <= bits)%Z /\ (2 ^ k | first)%Z /\ (first + 2 ^ k <= last + 1)%Z /\ (last - first + 1 < 2 * 2 ^ m)%Z /\ (0 < 2 ^ k)%Z.
Proof.
  intros bits first last Hb Hf Hl m k. destruct (right_zeros_ok first bits Hb ltac:(lia)) as (R1 & R2 & _ & _).
  pose proof (Z.log2_spec (last - first + 1) ltac:(lia)) as (L1 & L2). fold m in L1, L2. assert (Hm : (0 <= m)%Z) by apply Z.log2_nonneg. rewrite Z.pow_succ_r in L2 by exact Hm.
  assert (K : (0 <= k <= m)%Z) by (unfold k; lia). repeat split; try lia.
  - apply (Z.pow_le_mono_r_iff 2); lia.
  - apply (divide_le k (right_zeros first bits)); [unfold k; lia|exact R2].
  - assert (2 ^ k <= 2 ^ m)%Z by (apply Z.pow_le_mono_r; lia). lia.
Qed.
(** The second half: the rest is smaller than the alignment. *)
Lemma summarize_small : forall bits last fuel k first, (0 <= k)%Z -> (k <= bits)%Z -> (k <= Z.of_nat fuel)%Z -> (0 <= first)%Z -> (last < 2 ^ bits)%Z ->
  (2 ^ k | first)%Z -> (last - first + 1 < 2 ^ k)%Z -> exists l, summarize fuel bits first last = Some l.
Proof.
  intros bits last fuel. induction fuel as [|f IH]; intros k first Hk Kb Hf H0 Hl Dv Hs; cbn [summarize]; destruct (Z.ltb_spec last first) as [L|L]; try (eexists; reflexivity).
  - assert (k = 0)%Z by lia. subst k. cbn in Hs. lia.
  - destruct (step_ok bits first last ltac:(lia) ltac:(lia) Hl) as (S1 & S2 & S3 & S4 & S5 & S6). cbv zeta in *. set (m := Z.log2 (last - first + 1)) in *.
    destruct (right_zeros_ok first bits ltac:(lia) ltac:(lia)) as (R1 & R2 & R3 & R4).
    assert (Lm : (m < k)%Z) by (apply Z.log2_lt_pow2; [lia|exact Hs]). specialize (R4 k ltac:(lia) Dv).
    rewrite Z.min_r in * by lia. destruct (IH m (first + 2 ^ m)%Z) as (l & El); try lia.
    + apply Z.divide_add_r; [exact S3|exists 1%Z; lia].
    + rewrite El. eexists. reflexivity.
Qed.
Lemma summarize_some : forall bits last fuel j first, (0 <= j)%Z -> (j <= bits)%Z -> (2 * bits - j + 1 <= Z.of_nat fuel)%Z -> (0 <= first)%Z -> (last < 2 ^ bits)%Z ->
  (2 ^ j | first)%Z -> exists l, summarize fuel bits first last = Some l.
Proof.
  intros bits last fuel. induction fuel as [|f IH]; intros j first Hj Jb Hf H0 Hl Dv; cbn [summarize]; destruct (Z.ltb_spec last first) as [L|L]; try (eexists; reflexivity); [lia|].
  destruct (step_ok bits first last ltac:(lia) ltac:(lia) Hl) as (S1 & S2 & S3 & S4 & S5 & S6). cbv zeta in *. set (m := Z.log2 (last - first + 1)) in *.
  destruct (right_zeros_ok first bits ltac:(lia) ltac:(lia)) as (R1 & R2 & R3 & R4). specialize (R4 j ltac:(lia) Dv).
  destruct (Z.le_gt_cases m (right_zeros first bits)) as [G|G].
  - rewrite Z.min_r in * by lia. destruct (summarize_small bits last f m (first + 2 ^ m)%Z) as (l & El); try lia.
    + apply Z.divide_add_r; [exact S3|exists 1%Z; lia].
    + rewrite El. eexists. reflexivity.
  - rewrite Z.min_l in * by lia. destruct (R3 ltac:(lia)) as (q & Eq). set (r := right_zeros first bits) in *.
    destruct (IH (r + 1)%Z (first + 2 ^ r)%Z) as (l & El); try lia.
    + exists (q + 1)%Z. rewrite Z.pow_add_r by lia. change (2 ^ 1)%Z with 2%Z. rewrite Eq. ring.
    + rewrite El. eexists. reflexivity.
Qed.
(** The networks are aligned and cover exactly the range. *)
Definition net_of (bits : Z) (c : Z * Z) : Prop := (0 <= fst c < 2 ^ bits /\ 0 <= snd c <= bits /\ (2 ^ (bits - snd c) | fst c))%Z.
Definition net_has (bits : Z) (c : Z * Z) (x : Z) : Prop := (fst c <= x < fst c + 2 ^ (bits - snd c))%Z.
Lemma summarize_ok : forall bits last fuel first l, (0 <= bits)%Z -> (0 <= first)%Z -> (last < 2 ^ bits)%Z -> summarize fuel bits first last = Some l ->
  (forall c, In c l -> net_of bits c /\ (fst c + 2 ^ (bits - snd c) <= last + 1)%Z) /\ (forall x, (first <= x <= last)%Z <-> exists c, In c l /\ net_has bits c x).
Proof.
  intros bits last fuel. induction fuel as [|f IH]; intros first l Hb H0 Hl E; cbn [summarize] in E; destruct (Z.ltb_spec last first) as [L|L]; try discriminate E.
  - injection E as <-. split; [intros c []|]. intros x. split; [lia|intros (c & [] & _)].
  - injection E as <-. split; [intros c []|]. intros x. split; [lia|intros (c & [] & _)].
  - destruct (step_ok bits first last Hb ltac:(lia) Hl) as (S1 & S2 & S3 & S4 & S5 & S6). cbv zeta in *. set (m := Z.log2 (last - first + 1)) in *. set (k := Z.min (right_zeros first bits) m) in *.
    destruct (summarize f bits (first + 2 ^ k)%Z last) as [r|] eqn:Er; [|discriminate E]. cbn [bind] in E. injection E as <-. destruct (IH (first + 2 ^ k)%Z r Hb ltac:(lia) Hl Er) as (I1 & I2).
    assert (Bk : (bits - (bits - k) = k)%Z) by lia. split.
    + intros c [<-|Hc]; [|exact (I1 c Hc)]. unfold net_of. cbn [fst snd]. rewrite Bk. repeat split; try lia. exact S3.
    + intros x. split.
      * intros Hx. destruct (Z.lt_ge_cases x (first + 2 ^ k)) as [G|G].
        -- eexists. split; [left; reflexivity|]. unfold net_has. cbn [fst snd]. rewrite Bk. lia.
        -- destruct (proj1 (I2 x) ltac:(lia)) as (c & Hc & Hx'). exists c. split; [right; exact Hc|exact Hx'].
      * intros (c & [<-|Hc] & Hx').
        -- unfold net_has in Hx'. cbn [fst snd] in Hx'. rewrite Bk in Hx'. lia.
        -- assert (first + 2 ^ k <= x <= last)%Z by (apply I2; exists c; auto). lia.
Qed.

(** ** The items *)
Lemma odd_dash : odd_char "-". Proof. repeat split; discriminate. Qed.
Lemma odd_slash : odd_char "/". Proof. repeat split; discriminate. Qed.
Lemma odd_comma : odd_char ",". Proof. repeat split; discriminate. Qed.
Lemma range_text_ok : forall i, vpos (lo i) -> vpos (hi i) -> read_block (range_text i) = Some i /\ has_char "," (range_text i) = false.
Proof.
  intros [a b] Ha Hb. cbn [lo hi] in *. destruct (ip_text_ok a Ha) as (A1 & _ & A3). destruct (ip_text_ok b Hb) as (B1 & _ & B3). unfold range_text. cbn [lo hi].
  destruct (Z.eqb_spec a b) as [<-|N].
  - split; [|apply A3; exact odd_comma]. unfold read_block. rewrite (TextFacts.split_nochar "/") by (apply A3; exact odd_slash). rewrite (TextFacts.split_nochar "-") by (apply A3; exact odd_dash). rewrite A1. reflexivity.
  - split.
    + unfold read_block. rewrite (TextFacts.split_nochar "/") by (rewrite !has_char_app, (A3 _ odd_slash), (B3 _ odd_slash); reflexivity).
      change ("-" ++ ip_text b)%string with (String "-" (ip_text b)). rewrite (split_app_char "-" (ip_text a) (ip_text b)) by (apply A3; exact odd_dash). rewrite (TextFacts.split_nochar "-") by (apply B3; exact odd_dash). rewrite A1, B1. reflexivity.
    + rewrite !has_char_app, (A3 _ odd_comma), (B3 _ odd_comma). reflexivity.
Qed.
Lemma cidr_text_ok : forall six c, net_of (width six) c -> let off := if six then v6min else 0%Z in
  exists i, read_block (ip_text (fst c + off)%Z ++ "/" ++ str_of_Z (snd c))%string = Some i /\ (forall y, (lo i <= y <= hi i)%Z <-> net_has (width six) c (y - off)%Z) /\
  has_char "," (ip_text (fst c + off)%Z ++ "/" ++ str_of_Z (snd c))%string = false.
Proof.
  intros six [n k] (N1 & N2 & N3) off. cbn [fst snd] in *. pose proof consts as (Q1 & Q2 & Q3).
  assert (Hv : vpos (n + off) /\ negb (n + off <=? v4max)%Z = six).
  { unfold vpos, off. destruct six; cbn [width] in N1.
    - change (2 ^ 128)%Z with 340282366920938463463374607431768211456%Z in N1. split; lia.
    - change (2 ^ 32)%Z with 4294967296%Z in N1. split; lia. }
  destruct Hv as (Hv & Hs). destruct (ip_text_ok _ Hv) as (A1 & A2 & A3). rewrite Hs in A2.
  assert (Dg : forall ch, is_digit ch = false -> has_char ch (str_of_Z k) = false) by (intros ch Hc; apply digits_free; [exact Hc|apply str_of_Z_digits; lia]).
  exists (cidr_ivl (Cidr six n k)). split; [|split].
  - unfold read_block. change ("/" ++ str_of_Z k)%string with (String "/" (str_of_Z k)). rewrite (split_app_char "/" (ip_text (n + off)) (str_of_Z k)) by (apply A3; exact odd_slash). rewrite (TextFacts.split_nochar "/" (str_of_Z k)) by (apply Dg; reflexivity).
    rewrite A1, Z_of_str_of_Z. cbn [bind]. rewrite A2. cbv zeta. replace ((0 <=? k) && (k <=? width six))%Z with true by (symmetry; lia).
    do 2 f_equal. unfold off. destruct six; f_equal; lia.
  - intros y. unfold cidr_ivl, net_has. cbn [c6 cnum cprefix lo hi fst snd]. assert (P : (0 < 2 ^ (width six - k))%Z) by (apply Z.pow_pos_nonneg; lia). rewrite (proj2 (Z.mod_divide n (2 ^ (width six - k)) ltac:(lia)) N3).
    unfold pos, off. cbn [is6 num]. destruct six; lia.
  - rewrite !has_char_app, (A3 _ odd_comma), Dg by reflexivity. reflexivity.
Qed.

(** ** The texts *)
Local Opaque range_text ip_text.
Lemma says_join : forall items y, (forall s, In s items -> has_char "," s = false) -> items <> [] ->
  (says_ip (join "," items) y <-> exists s i, In s items /\ read_block s = Some i /\ (lo i <= y <= hi i)%Z).
Proof. intros items y H Ne. unfold says_ip. rewrite (split_join ",") by (exact Ne || (apply Forall_forall; exact H)). reflexivity. Qed.
Lemma ranges_ok : forall l, ipset l -> forall y, says_ip (ranges_text l) y <-> mem y l.
Proof.
  intros l Hl y. assert (It : forall i, In i l -> read_block (range_text i) = Some i /\ has_char "," (range_text i) = false).
  { intros i Hi. pose proof (canonical_in l i (proj1 Hl) Hi). apply range_text_ok; apply (proj2 Hl); exists i; split; auto; lia. }
  destruct l as [|i0 l0]; [|remember (i0 :: l0) as l eqn:El].
  - cbn [ranges_text]. split; [|intros H; destruct (proj1 (mem_nil y) H)]. intros (s & i & Hs & Ri & _). cbn [split Ascii.eqb Bool.eqb] in Hs. destruct Hs as [<-|[]]. vm_compute in Ri. discriminate Ri.
  - replace (ranges_text l) with (join "," (map range_text l)) by (rewrite El; reflexivity). rewrite says_join.
    + split.
      * intros (s & i & Hs & Ri & Hy). apply in_map_iff in Hs as (j & <- & Hj). rewrite (proj1 (It j Hj)) in Ri. injection Ri as <-. exists j. split; [exact Hj|lia].
      * intros (i & Hi & Hy). exists (range_text i), i. split; [apply in_map; exact Hi|]. split; [exact (proj1 (It i Hi))|lia].
    + intros s Hs. apply in_map_iff in Hs as (j & <- & Hj). exact (proj2 (It j Hj)).
    + rewrite El. discriminate.
Qed.
Lemma range_cidrs_ok : forall i, fam i -> exists r, range_cidrs i = Some r /\ r <> [] /\ (forall s, In s r -> has_char "," s = false) /\
  forall y, (lo i <= y <= hi i)%Z <-> exists s j, In s r /\ read_block s = Some j /\ (lo j <= y <= hi j)%Z.
Proof.
  intros i Fi. pose proof consts as (Q1 & Q2 & Q3). unfold range_cidrs. set (six := negb (lo i <=? v4max)%Z). set (off := if six then v6min else 0%Z).
  assert (B : (0 <= lo i - off <= hi i - off)%Z /\ (hi i - off < 2 ^ width six)%Z).
  { unfold off, six. destruct Fi as [Fi|Fi].
    - replace (lo i <=? v4max)%Z with true by (symmetry; lia). cbn [negb width]. change (2 ^ 32)%Z with 4294967296%Z. lia.
    - replace (lo i <=? v4max)%Z with false by (symmetry; lia). cbn [negb width]. change (2 ^ 128)%Z with 340282366920938463463374607431768211456%Z. lia. }
  assert (W : (0 <= width six <= 128)%Z) by (unfold width; destruct six; lia).
  destruct (summarize_some (width six) (hi i - off) 300 0 (lo i - off)%Z) as (l & El); try lia; [exists (lo i - off)%Z; cbn; lia|].
  rewrite El. cbn [bind]. eexists. split; [reflexivity|]. destruct (summarize_ok _ _ _ _ _ (proj1 W) (proj1 (proj1 B)) (proj2 B) El) as (S1 & S2).
  assert (It : forall c, In c l -> exists j, read_block (ip_text (fst c + off)%Z ++ "/" ++ str_of_Z (snd c))%string = Some j /\ (forall y, (lo j <= y <= hi j)%Z <-> net_has (width six) c (y - off)%Z) /\ has_char "," (ip_text (fst c + off)%Z ++ "/" ++ str_of_Z (snd c))%string = false).
  { intros c Hc. apply (cidr_text_ok six c). exact (proj1 (S1 c Hc)). }
  split; [|split].
  - intros E. apply map_eq_nil in E. subst l. destruct (proj1 (S2 (lo i - off)%Z) ltac:(lia)) as (c & [] & _).
  - intros s Hs. apply in_map_iff in Hs as (c & <- & Hc). destruct (It c Hc) as (j & _ & _ & H). exact H.
  - intros y. transitivity (lo i - off <= y - off <= hi i - off)%Z; [lia|]. rewrite S2. split.
    + intros (c & Hc & Hy). destruct (It c Hc) as (j & J1 & J2 & _). exists (ip_text (fst c + off)%Z ++ "/" ++ str_of_Z (snd c))%string, j. split; [apply in_map_iff; exists c; split; [reflexivity|exact Hc]|].
      split; [exact J1|]. apply J2. exact Hy.
    + intros (s & j & Hs & Rj & Hy). apply in_map_iff in Hs as (c & <- & Hc). destruct (It c Hc) as (j' & J1 & J2 & _). rewrite J1 in Rj. injection Rj as ->. exists c. split; [exact Hc|]. apply J2. exact Hy.
Qed.
Lemma cidr_list_ok : forall l, (forall i, In i l -> fam i) -> exists r, cidr_list l = Some r /\ (l <> [] -> r <> []) /\ (forall s, In s r -> has_char "," s = false) /\
  forall y, mem y l <-> exists s j, In s r /\ read_block s = Some j /\ (lo j <= y <= hi j)%Z.
Proof.
  unfold cidr_list. induction l as [|i l IH]; intros Hl.
  - exists []. split; [reflexivity|]. split; [congruence|]. split; [intros s []|]. intros y. rewrite mem_nil. split; [intros []|intros (s & j & [] & _)].
  - destruct IH as (r & E & _ & R2 & R3); [intros j Hj; apply Hl; right; exact Hj|]. destruct (range_cidrs_ok i (Hl i (or_introl eq_refl))) as (q & Eq & Nq & Q2 & Q3).
    cbn [mapM]. rewrite Eq. cbn [bind]. destruct (mapM range_cidrs l) as [m|]; [|discriminate E]. cbn [bind] in *. injection E as <-. exists (q ++ List.concat m). split; [reflexivity|]. split; [|split].
    + intros _ E. apply app_eq_nil in E as [E _]. exact (Nq E).
    + intros s Hs. apply in_app_or in Hs as [Hs|Hs]; auto.
    + intros y. split.
      * intros (k & [<-|Hk] & Hy).
        -- destruct (proj1 (Q3 y)) as (s & j & Hs & Hj & Hy'); [lia|]. exists s, j. split; [apply in_or_app; left; exact Hs|]. auto.
        -- destruct (proj1 (R3 y)) as (s & j & Hs & Hj & Hy'); [exists k; auto|]. exists s, j. split; [apply in_or_app; right; exact Hs|]. auto.
      * intros (s & j & Hs & Hj & Hy). apply in_app_or in Hs as [Hs|Hs].
        -- exists i. split; [left; reflexivity|]. assert (lo i <= y <= hi i)%Z by (apply Q3; exists s, j; auto). lia.
        -- destruct (proj2 (R3 y)) as (k & Hk & Hy'); [exists s, j; auto|]. exists k. split; [right; exact Hk|exact Hy'].
Qed.
Lemma says_empty : forall y, ~ says_ip "" y.
Proof. intros y (s & i & [<-|[]] & Ri & _). vm_compute in Ri. discriminate Ri. Qed.
Lemma cidr_str_ok : forall l, ipset l -> exists t, cidr_list_str l = Some t /\ forall y, says_ip t y <-> mem y l.
Proof.
  intros l Hl. destruct (cidr_list_ok l) as (r & E & R1 & R2 & R3); [intros i Hi; exact (ipset_fam l i Hl Hi)|]. unfold cidr_list_str. rewrite E. cbn [bind]. eexists. split; [reflexivity|].
  intros y. destruct l as [|i l].
  - assert (r = []) as -> by (vm_compute in E; injection E as <-; reflexivity). cbn [join]. split; [intros H; destruct (says_empty y H)|intros H; destruct (proj1 (mem_nil y) H)].
  - rewrite says_join; [|exact R2|apply R1; discriminate]. symmetry. apply R3.
Qed.
Lemma range_or_cidr_ok : forall only l, ipset l -> exists t, range_or_cidr_str only l = Some t /\ forall y, says_ip t y <-> mem y l.
Proof.
  intros only l Hl. destruct (cidr_str_ok l Hl) as (t & E & Ht). unfold cidr_list_str in E. unfold range_or_cidr_str. destruct (cidr_list l) as [r|]; [|discriminate E]. cbn [bind] in *. injection E as <-.
  destruct ((List.length l * 2 <=? List.length r) || only); eexists; (split; [reflexivity|]); [exact (ranges_ok l Hl)|exact Ht].
Qed.
