(** * C64: the texts of connections say exactly which connections are meant. *)
From Coq Require Import ZArith List Bool Arith Lia String Ascii.
From Verif Require Import IntervalModel IntervalFacts HyperModel HyperFacts HyperTop HyperInst TextModel TextFacts PortProtoModel PropPorts
                          PeerModel ConnModel ConnAlg StdDims QueryAlg ConnTextModel ConnTextFacts.
Import ListNotations.
Local Open Scope string_scope.
Local Open Scope list_scope.
Local Open Scope nat_scope.

(** C64.  The reader [meaning] (ConnTextFacts) is written without reference to the printer.  For every set of connections, with and without the printing of
    complements, a text is printed, and a connection of the space is in the set if and only if the text says so.  The texts of peers, hosts and paths are
    required to be readable: no ":", "{", "}" and no newline in them, and a reader [ws] of these texts alone. *)
Theorem C64_connection_texts : forall dom word_text ws, doms_ok dom -> (forall d, 2 <= d -> dom d = std_dom d) -> readable dom word_text ws std_all ->
  forall compl h, a_ok dom std_rest h ->
  exists t, conn_text dom word_text std_all compl h = Some t /\ forall pt, a_space dom pt -> (meaning ws t pt <-> a_mem pt h).
Proof.
  intros dom wt ws DO E2 RD compl h Oh. destruct (conn_text_ok dom DO E2 wt ws std_all (subseq_refl _) RD compl h Oh) as (t & E & _ & M); [exact (obj_act dom std_all h Oh)|].
  exists t. split; [exact E|exact M].
Qed.
Print Assumptions C64_connection_texts.
(** The same for the sets whose active dimensions are in a list [Ds]: the texts of the other dimensions need not be readable. *)
Theorem C64_some_dimensions : forall dom word_text ws Ds, doms_ok dom -> (forall d, 2 <= d -> dom d = std_dom d) -> subseq Ds std_all -> readable dom word_text ws Ds ->
  forall compl h, a_ok dom std_rest h -> (forall d, In d (act_of h) -> In d Ds) ->
  exists t, conn_text dom word_text std_all compl h = Some t /\ has_char newline t = false /\ forall pt, a_space dom pt -> (meaning ws t pt <-> a_mem pt h).
Proof. intros dom wt ws Ds DO E2 SD RD compl h Oh Ha. exact (conn_text_ok dom DO E2 wt ws Ds SD RD compl h Oh Ha). Qed.
Print Assumptions C64_some_dimensions.
(** Sets of connections with the same text are equal. *)
Theorem C64_texts_distinguish : forall dom word_text ws, doms_ok dom -> (forall d, 2 <= d -> dom d = std_dom d) -> readable dom word_text ws std_all ->
  forall c1 c2 h1 h2, a_ok dom std_rest h1 -> a_ok dom std_rest h2 -> conn_text dom word_text std_all c1 h1 = conn_text dom word_text std_all c2 h2 ->
  forall pt, a_space dom pt -> (a_mem pt h1 <-> a_mem pt h2).
Proof.
  intros dom wt ws DO E2 RD c1 c2 h1 h2 O1 O2 E pt Sp. destruct (C64_connection_texts dom wt ws DO E2 RD c1 h1 O1) as (t1 & E1 & M1). destruct (C64_connection_texts dom wt ws DO E2 RD c2 h2 O2) as (t2 & E2' & M2).
  assert (t1 = t2) by congruence. subst t2. rewrite <- (M1 pt Sp). exact (M2 pt Sp).
Qed.
Print Assumptions C64_texts_distinguish.

(** ** The hypotheses can be met: a readable text for hosts, paths and peers *)
Definition zig (z : Z) : Z := (if z <? 0 then -2 * z - 1 else 2 * z)%Z.
Definition w_item (i : ivl) : string := (str_of_Z (zig (lo i)) ++ String "-" (str_of_Z (zig (hi i))))%string.
Definition w_text (d : dim) (v : val) : string :=
  match v with VI l | VN false l => String "+" (join "," (map w_item l)) | VN true l => String "!" (join "," (map w_item l)) end.
Definition w_says (d : dim) (t : string) (x : Z) : Prop := exists v, val_wf v /\ w_text d v = t /\ val_mem x v.
Lemma zig_inj : forall a b, zig a = zig b -> a = b.
Proof. intros a b. unfold zig. destruct (Z.ltb_spec a 0), (Z.ltb_spec b 0); lia. Qed.
Lemma zig_pos : forall a, (0 <= zig a)%Z.
Proof. intros a. unfold zig. destruct (Z.ltb_spec a 0); lia. Qed.
Lemma digits_no : forall c s, is_digit c = false -> all_digits s = true -> has_char c s = false.
Proof.
  intros c s Hc H. induction s as [|a s IH]; [reflexivity|]. cbn in H. apply andb_true_iff in H as [H1 H2]. cbn [has_char]. rewrite (IH H2).
  destruct (Ascii.eqb_spec a c) as [->|]; [congruence|]. destruct (Ascii.eqb_spec c a) as [->|]; [congruence|]. reflexivity.
Qed.
Lemma w_item_no : forall c i, is_digit c = false -> c <> "-"%char -> has_char c (w_item i) = false.
Proof.
  intros c i Hc N. destruct (str_of_Z_digits _ (zig_pos (lo i))) as [D1 _]. destruct (str_of_Z_digits _ (zig_pos (hi i))) as [D2 _]. unfold w_item. rewrite has_char_app, (digits_no c _ Hc D1). cbn [has_char].
  rewrite (digits_no c _ Hc D2). destruct (Ascii.eqb_spec "-" c) as [E|]; [congruence|]. destruct (Ascii.eqb_spec c "-") as [E|]; [congruence|]. reflexivity.
Qed.
Lemma w_item_inj : forall i j, w_item i = w_item j -> i = j.
Proof.
  intros i j E. apply (f_equal (split "-")) in E. unfold w_item in E.
  assert (D : forall z, all_digits (str_of_Z (zig z)) = true) by (intros z; apply str_of_Z_digits, zig_pos).
  rewrite !split_app_char in E by (apply digits_no; [reflexivity|apply D]). rewrite !TextFacts.split_nochar in E by (apply digits_no; [reflexivity|apply D]). injection E as E1 E2.
  apply str_of_Z_inj, zig_inj in E1. apply str_of_Z_inj, zig_inj in E2. destruct i, j. cbn in *. congruence.
Qed.
Lemma w_list_inj : forall l m, join "," (map w_item l) = join "," (map w_item m) -> l = m.
Proof.
  assert (W : forall i, has_char "," (w_item i) = false) by (intros i; apply w_item_no; [reflexivity|discriminate]).
  assert (Ne : forall l, l <> [] -> split "," (join "," (map w_item l)) = map w_item l).
  { intros l N. apply (split_join "," (map w_item l)); [destruct l; [congruence|discriminate]|]. apply Forall_forall. intros s Hs. apply in_map_iff in Hs as (i & <- & _). apply W. }
  assert (Nn : forall i, w_item i <> "") by (intros i X; unfold w_item in X; destruct (str_of_Z (zig (lo i))); discriminate X).
  assert (Z0 : forall l, join "," (map w_item l) = "" -> l = []).
  { intros [|i l] E; [reflexivity|]. assert (X : split "," (join "," (map w_item (i :: l))) = map w_item (i :: l)) by (apply Ne; discriminate). rewrite E in X. cbn in X. injection X as X _. destruct (Nn i (eq_sym X)). }
  assert (Inj : forall l m, map w_item l = map w_item m -> l = m).
  { induction l as [|i l IH]; intros [|j m] E; try discriminate E; [reflexivity|]. cbn in E. injection E as E1 E2. f_equal; [apply w_item_inj; exact E1|apply IH; exact E2]. }
  intros l m E. destruct l as [|i l]; [symmetry; apply Z0; rewrite <- E; reflexivity|]. destruct m as [|j m]; [apply Z0; rewrite E; reflexivity|].
  apply Inj. assert (X : split "," (join "," (map w_item (i :: l))) = map w_item (i :: l)) by (apply Ne; discriminate).
  assert (Y : split "," (join "," (map w_item (j :: m))) = map w_item (j :: m)) by (apply Ne; discriminate). rewrite E in X. exact (eq_trans (eq_sym X) Y).
Qed.
Example w_readable : forall dom, doms_ok dom -> readable dom w_text w_says std_all.
Proof.
  intros dom DO d v _ Hw V N Q. split.
  - assert (G : forall l, quiet (join "," (map w_item l)) = true).
    { intros l. apply quiet_join; [reflexivity|]. intros s Hs. apply in_map_iff in Hs as (i & <- & _). unfold quiet. rewrite !w_item_no by (reflexivity || discriminate). reflexivity. }
    destruct v as [l|[] l]; unfold w_text; [change (quiet ("+" ++ join "," (map w_item l)) = true)%string|change (quiet ("!" ++ join "," (map w_item l)) = true)%string|change (quiet ("+" ++ join "," (map w_item l)) = true)%string]; rewrite quiet_app, G; reflexivity.
  - intros x _. split; [|intros H; exists v; split; [apply V|split; [reflexivity|exact H]]]. intros (w & _ & E & H).
    destruct v as [l|[] l], w as [m|[] m]; unfold w_text in E; try discriminate E; injection E as E; apply w_list_inj in E; subst m; exact H.
Qed.
(** ** Texts *)
Definition d_empty (d : dim) : val := match std_dom d with VI _ => VI [] | VN _ _ => VN false [] end.
Definition box (l : list (dim * val)) : hc val :=
  make_props (val_ops std_dom) d_empty std_all (fun d => match find (fun p => fst p =? d) l with Some (_, v) => v | None => std_dom d end).
Definition c_tcp : hc val := box [(2, VI [Ivl 6 6]); (4, VI [Ivl 80 80; Ivl 443 445]); (5, VI [Ivl 0 0])].
Definition c_not_dns : hc val := h_sub (val_ops std_dom) std_all (hall Conn) (box [(2, VI [Ivl 17 17]); (4, VI [Ivl 53 53])]).
Definition c_two : hc val := h_or (val_ops std_dom) std_all c_tcp (box [(2, VI [Ivl 1 1]); (8, VI [Ivl 8 8])]).
Example ex_tcp : conn_text std_dom w_text std_all true c_tcp = Some "{protocols:TCP,dst_ports:80,443-445,methods:GET}".
Proof. vm_compute. reflexivity. Qed.
Example ex_not_dns : conn_text std_dom w_text std_all true c_not_dns = Some "All but {protocols:UDP,dst_ports:53}"
  /\ conn_text std_dom w_text std_all false c_not_dns = Some "{protocols:UDP,dst_ports:1-52,54-65535},{protocols:all but UDP}".
Proof. split; vm_compute; reflexivity. Qed.
Example ex_two : conn_text std_dom w_text std_all true c_two = Some "{protocols:TCP,dst_ports:80,443-445,methods:GET},{protocols:ICMP,icmp_type:8}".
Proof. vm_compute. reflexivity. Qed.
(** The reader at work: TCP to port 444 with GET is in the first text, with POST it is not. *)
Example ex_read : meaning w_says "{protocols:TCP,dst_ports:80,443-445,methods:GET}" (fun d => nth d [0; 0; 6; 1000; 444; 0; 0; 0; 0; 0]%Z 0%Z)
  /\ ~ meaning w_says "{protocols:TCP,dst_ports:80,443-445,methods:GET}" (fun d => nth d [0; 0; 6; 1000; 444; 2; 0; 0; 0; 0]%Z 0%Z).
Proof.
  assert (R1 : read_bodies "{protocols:TCP,dst_ports:80,443-445,methods:GET}" = Some ["protocols:TCP,dst_ports:80,443-445,methods:GET"]) by reflexivity.
  assert (R2 : read_body "protocols:TCP,dst_ports:80,443-445,methods:GET" = Some [("protocols", "TCP"); ("dst_ports", "80,443-445"); ("methods", "GET")]) by reflexivity.
  split.
  - eexists; eexists; eexists. split; [exact R1|]. split; [left; reflexivity|]. split; [exact R2|]. intros k v [H|[H|[H|[]]]]; injection H as <- <-.
    + exists 2. split; [reflexivity|]. split; [cbn; lia|]. left. reflexivity.
    + exists 4. split; [reflexivity|]. exists [(80, 80); (443, 445)]%Z, (443, 445)%Z. split; [reflexivity|]. split; [right; left; reflexivity|cbn; lia].
    + exists 5. split; [reflexivity|]. split; [cbn; lia|]. left. reflexivity.
  - intros (bs & b & items & E & Hb & Er & D). rewrite R1 in E. injection E as <-. destruct Hb as [<-|[]]. rewrite R2 in Er. injection Er as <-.
    destruct (D "methods" "GET") as (d & Ed & S); [right; right; left; reflexivity|].
    do 10 (destruct d as [|d]; [try discriminate Ed; destruct S as [_ Sx]; vm_compute in Sx; destruct Sx as [Sx|[]]; discriminate Sx|]). destruct d; discriminate Ed.
Qed.
