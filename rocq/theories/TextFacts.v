(** * Facts about the text operations. *)
From Coq Require Import ZArith List Bool String Ascii Lia.
From Coq Require Import Decimal DecimalString DecimalFacts DecimalZ.
From Verif Require Import TextModel.
Import ListNotations.
Local Open Scope string_scope.

Lemma split_ne c s : split c s <> [].
Proof. destruct s as [|a t]; simpl; [discriminate|]. destruct (Ascii.eqb a c); [discriminate|]. destruct (split c t); discriminate. Qed.

Lemma split_nochar c s : has_char c s = false -> split c s = [s].
Proof.
  induction s as [|a t IH]; simpl; auto. intros H. apply orb_false_iff in H as [H1 H2].
  rewrite H1. rewrite IH by auto. reflexivity.
Qed.

Lemma split_app_char c s t : has_char c s = false -> split c (s ++ String c t) = s :: split c t.
Proof.
  induction s as [|a s IH]; simpl; intros H.
  - rewrite Ascii.eqb_refl. reflexivity.
  - apply orb_false_iff in H as [H1 H2]. rewrite H1, IH by auto. reflexivity.
Qed.

(** Splitting a joined list gives the list back, when no item contains the separator
    and the list is not empty. *)
Lemma split_join c l : l <> [] -> Forall (fun s => has_char c s = false) l ->
  split c (join (String c "") l) = l.
Proof.
  induction l as [|x l IH]; [congruence|]. intros _ F. inversion F; subst.
  destruct l as [|y l]; [apply split_nochar; auto|].
  change (join (String c "") (x :: y :: l)) with (x ++ String c "" ++ join (String c "") (y :: l)).
  change (String c "" ++ join (String c "") (y :: l)) with (String c (join (String c "") (y :: l))).
  rewrite split_app_char by auto. rewrite IH; auto. discriminate.
Qed.

Lemma has_char_app c s t : has_char c (s ++ t) = has_char c s || has_char c t.
Proof. induction s as [|a s IH]; simpl; auto. rewrite IH, orb_assoc. reflexivity. Qed.

Lemma app_assoc_s (a b c : string) : (a ++ b) ++ c = a ++ b ++ c.
Proof. induction a as [|x a IH]; simpl; congruence. Qed.
Lemma app_nil_s (a : string) : a ++ "" = a.
Proof. induction a as [|x a IH]; simpl; congruence. Qed.
Lemma length_app_s (a b : string) : String.length (a ++ b) = (String.length a + String.length b)%nat.
Proof. induction a as [|x a IH]; simpl; congruence. Qed.

(** Decimal numbers. *)
Lemma Z_of_str_of_Z z : Z_of_str (str_of_Z z) = Some z.
Proof.
  unfold Z_of_str, str_of_Z. rewrite NilZero.isi.
  - simpl. rewrite DecimalZ.of_to. reflexivity.
  - unfold Z.to_int. destruct z; try discriminate; intro H; injection H as H.
    revert H. apply DecimalPos.Unsigned.to_uint_nonnil.
  - unfold Z.to_int. destruct z; try discriminate; intro H; injection H as H.
    revert H. apply DecimalPos.Unsigned.to_uint_nonnil.
Qed.

Lemma str_of_Z_inj a b : str_of_Z a = str_of_Z b -> a = b.
Proof. intro H. apply (f_equal Z_of_str) in H. rewrite !Z_of_str_of_Z in H. congruence. Qed.

Definition is_digit (a : ascii) : bool :=
  (N.leb 48 (N_of_ascii a) && N.leb (N_of_ascii a) 57)%bool.
Fixpoint all_digits (s : string) : bool :=
  match s with EmptyString => true | String a t => is_digit a && all_digits t end.

Lemma digits_uint d : all_digits (NilEmpty.string_of_uint d) = true.
Proof. induction d; simpl; auto. Qed.

Lemma str_of_Z_digits z : (0 <= z)%Z -> all_digits (str_of_Z z) = true /\ str_of_Z z <> "".
Proof.
  intros H. unfold str_of_Z, NilZero.string_of_int, NilZero.string_of_uint. destruct z as [|p|p]; [| |lia].
  - simpl. split; [reflexivity|discriminate].
  - cbn [Z.to_int]. pose proof (DecimalPos.Unsigned.to_uint_nonnil p). destruct (Pos.to_uint p) eqn:E; try congruence;
      (split; [apply digits_uint|discriminate]).
Qed.

Lemma digits_nochar s c : all_digits s = true -> is_digit c = false -> has_char c s = false.
Proof.
  induction s as [|a t IH]; simpl; auto. intros H Hc. apply andb_true_iff in H as [H1 H2].
  rewrite IH by auto. rewrite orb_false_r. destruct (Ascii.eqb_spec a c); auto. congruence.
Qed.
