(** * C66: the texts of IP blocks denote exactly the addresses of the block. *)
From Coq Require Import ZArith List Bool Arith Lia String Ascii.
From Verif Require Import IntervalModel IntervalFacts TextModel TextFacts PortProtoModel PeerModel PeerFacts IpTextModel IpTextFacts.
Import ListNotations.
Local Open Scope string_scope.
Local Open Scope list_scope.
Local Open Scope nat_scope.

(** C66.  [says_ip t y] (IpTextFacts.v) reads a comma separated list of addresses, ranges "a-b" and networks "a/n", where an address is a dotted quad or a group
    text of RFC 4291, section 2.2, with at most one "::"; it knows nothing of the printer.  For every block (a canonical set of valid addresses) every text of the
    code is printed, and says of an address exactly whether it is in the block. *)
Theorem C66_ranges : forall l, ipset l -> forall y, says_ip (ranges_text l) y <-> mem y l.
Proof. exact ranges_ok. Qed.
Theorem C66_networks : forall l, ipset l -> exists t, cidr_list_str l = Some t /\ forall y, says_ip t y <-> mem y l.
Proof. exact cidr_str_ok. Qed.
Theorem C66_shorter : forall only l, ipset l -> exists t, range_or_cidr_str only l = Some t /\ forall y, says_ip t y <-> mem y l.
Proof. exact range_or_cidr_ok. Qed.
(** Blocks with the same text are the same: the texts (names of blocks, edges of graphs) can be used as keys. *)
Theorem C66_keys : forall l m, ipset l -> ipset m ->
  (ranges_text l = ranges_text m -> l = m) /\ (cidr_list_str l = cidr_list_str m -> l = m) /\ (forall only, range_or_cidr_str only l = range_or_cidr_str only m -> l = m) /\
  (forall t, range_or_cidr_str false l = Some t -> (t = ranges_text m \/ cidr_list_str m = Some t) -> l = m).
Proof.
  intros l m Hl Hm. assert (U : (forall y, mem y l <-> mem y m) -> l = m) by (intros H; exact (canonical_ext _ _ (proj1 Hl) (proj1 Hm) H)).
  destruct (C66_networks l Hl) as (a & Ea & Ha). destruct (C66_networks m Hm) as (b & Eb & Hb). split; [|split; [|split]].
  - intros E. apply U. intros y. rewrite <- (C66_ranges l Hl y), <- (C66_ranges m Hm y), E. tauto.
  - intros E. apply U. intros y. rewrite <- (Ha y), <- (Hb y). assert (a = b) as -> by congruence. tauto.
  - intros only E. destruct (C66_shorter only l Hl) as (t & Et & Ht). destruct (C66_shorter only m Hm) as (u & Eu & Hu). apply U. intros y. rewrite <- (Ht y), <- (Hu y). assert (t = u) as -> by congruence. tauto.
  - intros t Et Ch. destruct (C66_shorter false l Hl) as (t' & Et' & Ht). assert (t' = t) by congruence. subst t'. apply U. intros y. rewrite <- (Ht y).
    destruct Ch as [->|Ch]; [exact (C66_ranges m Hm y)|]. assert (b = t) by congruence. subst b. apply Hb.
Qed.
Print Assumptions C66_ranges.
Print Assumptions C66_networks.
Print Assumptions C66_shorter.
Print Assumptions C66_keys.

(** ** Cases *)
Definition at6 (a b c d e f g h : Z) : Z := (v6min + value 65536 [a; b; c; d; e; f; g; h])%Z.
Definition b_two : iset := [Ivl 167772161 167772170; Ivl 3232235776 3232236031; Ivl (at6 8193 3512 0 0 0 0 0 0) (at6 8193 3512 0 0 0 0 0 255)].
Example b_two_ok : ipset b_two.
Proof.
  split; [repeat constructor; vm_compute; (reflexivity || discriminate || (intros H; discriminate H) || idtac)|].
  intros y (i & Hi & Hy). unfold vpos. cbn in Hi. destruct Hi as [<-|[<-|[<-|[]]]]; [left|left|right]; cbn [lo hi] in Hy; unfold v4max, v6max, at6 in *; cbn [value fold_left] in *; unfold v6min in *; lia.
Qed.
Example ex_ranges : ranges_text b_two = "10.0.0.1-10.0.0.10,192.168.1.0-192.168.1.255,2001:db8::-2001:db8::ff".
Proof. vm_compute. reflexivity. Qed.
Example ex_networks : cidr_list_str b_two = Some "10.0.0.1/32,10.0.0.2/31,10.0.0.4/30,10.0.0.8/31,10.0.0.10/32,192.168.1.0/24,2001:db8::/120".
Proof. vm_compute. reflexivity. Qed.
Example ex_shorter : range_or_cidr_str false b_two = Some (ranges_text b_two) /\ range_or_cidr_str false (skipn 1 b_two) = Some "192.168.1.0/24,2001:db8::/120" /\
  range_or_cidr_str true (skipn 1 b_two) = Some "192.168.1.0-192.168.1.255,2001:db8::-2001:db8::ff" /\ range_or_cidr_str false [] = Some "Empty".
Proof. repeat apply conj; vm_compute; reflexivity. Qed.
Example ex_six : map ip_text [at6 0 0 0 0 0 0 0 0; at6 0 0 0 0 0 0 0 1; at6 8193 3512 0 0 1 0 0 1; at6 1 0 0 0 0 0 0 0; at6 65152 0 0 0 1 2 3 4; at6 1 2 3 4 5 6 7 8; at6 1 0 2 3 4 5 6 7] =
  ["::"; "::1"; "2001:db8::1:0:0:1"; "1::"; "fe80::1:2:3:4"; "1:2:3:4:5:6:7:8"; "1:0:2:3:4:5:6:7"].
Proof. vm_compute. reflexivity. Qed.
(** The reader on texts that the printer does not write: upper limits, shifted zeros, networks with host bits; and on texts that are no blocks. *)
Example ex_reader : read_block "10.0.0.9/8" = Some (Ivl 167772160 184549375) /\ read_block "1:0::0:2" = Some (Ivl (at6 1 0 0 0 0 0 0 2) (at6 1 0 0 0 0 0 0 2)) /\
  read_block "::1:0/112" = Some (Ivl (at6 0 0 0 0 0 0 1 0) (at6 0 0 0 0 0 0 1 65535)) /\
  map read_block ["1.2.3"; "1.2.3.256"; "1:2"; "1::2::3"; "ns/a"; "Empty"; "12345::"; "1.2.3.4/33"; ""] = repeat None 9.
Proof. repeat apply conj; vm_compute; reflexivity. Qed.
Example ex_says : says_ip "10.0.0.1-10.0.0.10,192.168.1.0-192.168.1.255,2001:db8::-2001:db8::ff" 167772165%Z /\ ~ says_ip "10.0.0.1-10.0.0.10,192.168.1.0-192.168.1.255,2001:db8::-2001:db8::ff" 167772171%Z.
Proof.
  rewrite <- ex_ranges, !(C66_ranges b_two b_two_ok). split.
  - exists (Ivl 167772161 167772170). split; [left; reflexivity|cbn; lia].
  - intros (i & Hi & Hy). cbn in Hi. destruct Hi as [<-|[<-|[<-|[]]]]; cbn [lo hi] in Hy; unfold at6, v6min in *; cbn [value fold_left] in *; lia.
Qed.
