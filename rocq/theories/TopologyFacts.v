(** * Facts about TopologyModel.v: canonical forms and the registration of endpoints. *)
From Coq Require Import ZArith List Bool Arith Lia String Ascii Permutation.
From Verif Require Import IntervalModel TextModel TextFacts PortProtoModel PeerModel PeerSetFacts PolicyModel YamlModel ClusterModel ServiceModel TopologyModel.
Import ListNotations.
Local Open Scope string_scope.
Local Open Scope list_scope.
Local Open Scope nat_scope.

(** ** Dictionaries *)
Lemma assoc_put : forall A k (v : A) d k', assoc_s k' (dict_put k v d) = if String.eqb k' k then Some v else assoc_s k' d.
Proof.
  induction d as [|[a b] d IH]; intros k'; cbn [dict_put assoc_s]; [reflexivity|].
  destruct (String.eqb_spec a k) as [->|N]; cbn [assoc_s].
  - destruct (String.eqb k' k); reflexivity.
  - rewrite IH. destruct (String.eqb_spec k' a) as [Q|Q]; destruct (String.eqb_spec k' k); congruence.
Qed.
Lemma put_keys : forall A k (v : A) d x, In x (map fst (dict_put k v d)) <-> x = k \/ In x (map fst d).
Proof.
  induction d as [|[a b] d IH]; intros x; cbn [dict_put map fst In]; [intuition congruence|].
  destruct (String.eqb_spec a k) as [->|N]; cbn [map fst In]; [intuition congruence|]. rewrite IH. intuition congruence.
Qed.
Lemma put_NoDup : forall A k (v : A) d, NoDup (map fst d) -> NoDup (map fst (dict_put k v d)).
Proof.
  induction d as [|[a b] d IH]; intros H; cbn [dict_put map fst]; [constructor; [intros []|constructor]|].
  inversion H as [|? ? N H']; subst. destruct (String.eqb_spec a k) as [->|Q]; cbn [map fst]; constructor; auto.
  rewrite put_keys. intros [E|E]; auto.
Qed.
Lemma assoc_In : forall A (d : list (string * A)) k v, assoc_s k d = Some v -> In (k, v) d.
Proof.
  induction d as [|[a b] d IH]; intros k v; cbn [assoc_s]; [discriminate|]. destruct (String.eqb_spec k a) as [->|N]; [intros [= ->]; left; auto|right; auto].
Qed.
Lemma In_assoc : forall A (d : list (string * A)) k v, NoDup (map fst d) -> In (k, v) d -> assoc_s k d = Some v.
Proof.
  induction d as [|[a b] d IH]; intros k v N H; [destruct H|]. destruct H as [E|H]; inversion N as [|? ? Q N']; subst; cbn [assoc_s].
  - injection E as -> ->. rewrite String.eqb_refl. auto.
  - destruct (String.eqb_spec k a) as [->|_]; auto. destruct Q. apply (in_map fst) in H. auto.
Qed.
Lemma same_dict_perm : forall A (d d' : list (string * A)), NoDup (map fst d) -> NoDup (map fst d') -> (forall k, assoc_s k d = assoc_s k d') -> Permutation d d'.
Proof.
  intros A d d' N N' H. apply NoDup_Permutation; try (eapply NoDup_map_inv; eassumption).
  intros [k v]. split; intros I; apply assoc_In; [rewrite <- H|rewrite H]; apply In_assoc; auto.
Qed.
Lemma perm_same_dict : forall A (d d' : list (string * A)), NoDup (map fst d) -> Permutation d d' -> forall k, assoc_s k d = assoc_s k d'.
Proof.
  intros A d d' N P k. assert (N' : NoDup (map fst d')) by (eapply Permutation_NoDup; [apply Permutation_map; eassumption|auto]).
  destruct (assoc_s k d) eqn:E, (assoc_s k d') eqn:E'; auto.
  - apply assoc_In in E. apply (Permutation_in _ P) in E. apply In_assoc in E; auto. congruence.
  - apply assoc_In in E. apply (Permutation_in _ P) in E. apply In_assoc in E; auto. congruence.
  - apply assoc_In in E'. apply (Permutation_in _ (Permutation_sym P)) in E'. apply In_assoc in E'; auto. congruence.
Qed.

(** ** The order of texts *)
Lemma compare_lt_trans : forall a b c, String.compare a b = Lt -> String.compare b c = Lt -> String.compare a c = Lt.
Proof.
  induction a as [|x a IH]; intros [|y b] [|z c]; cbn [String.compare]; try discriminate; auto.
  unfold Ascii.compare. destruct (N.compare_spec (N_of_ascii x) (N_of_ascii y)) as [E|L|L]; try discriminate.
  - rewrite E. destruct (N.compare (N_of_ascii y) (N_of_ascii z)); eauto.
  - intros _. destruct (N.compare_spec (N_of_ascii y) (N_of_ascii z)) as [E|L'|L']; try discriminate.
    + rewrite <- E. intros _. rewrite (proj2 (N.compare_lt_iff _ _) L). auto.
    + intros _. rewrite (proj2 (N.compare_lt_iff _ _) (N.lt_trans _ _ _ L L')). auto.
Qed.
Lemma compare_refl : forall a, String.compare a a = Eq.
Proof. induction a as [|x a IH]; cbn; auto. unfold Ascii.compare. rewrite N.compare_refl. auto. Qed.
Lemma leb_trans : forall a b c, String.leb a b = true -> String.leb b c = true -> String.leb a c = true.
Proof.
  unfold String.leb. intros a b c. destruct (String.compare a b) eqn:E1; [apply String.compare_eq_iff in E1; subst; auto| |discriminate].
  destruct (String.compare b c) eqn:E2; [apply String.compare_eq_iff in E2; subst; rewrite E1; auto| |discriminate].
  rewrite (compare_lt_trans _ _ _ E1 E2). auto.
Qed.
Lemma leb_total : forall a b, String.leb a b = true \/ String.leb b a = true.
Proof. unfold String.leb. intros a b. rewrite (String.compare_antisym b a). destruct (String.compare a b); auto. Qed.
Lemma leb_anti : forall a b, String.leb a b = true -> String.leb b a = true -> a = b.
Proof. exact String.leb_antisym. Qed.

(** ** Sorting: the result depends on the elements only *)
Lemma insert_comm : forall a b l, insert a (insert b l) = insert b (insert a l).
Proof.
  intros a b. induction l as [|x l IH]; cbn [insert].
  - destruct (String.leb a b) eqn:E1, (String.leb b a) eqn:E2; auto.
    + rewrite (leb_anti _ _ E1 E2). auto.
    + destruct (leb_total a b); congruence.
  - destruct (String.leb b x) eqn:Eb, (String.leb a x) eqn:Ea; cbn [insert]; rewrite ?Ea, ?Eb.
    + destruct (String.leb a b) eqn:E1, (String.leb b a) eqn:E2; rewrite ?Ea, ?Eb; auto.
      * rewrite (leb_anti _ _ E1 E2). auto.
      * destruct (leb_total a b); congruence.
    + destruct (String.leb a b) eqn:E1; [|rewrite ?Ea; auto]. rewrite (leb_trans _ _ _ E1 Eb) in Ea. discriminate.
    + destruct (String.leb b a) eqn:E1; [|rewrite ?Eb; auto]. rewrite (leb_trans _ _ _ E1 Ea) in Eb. discriminate.
    + f_equal. exact IH.
Qed.
Lemma sort_perm : forall l l', Permutation l l' -> sort l = sort l'.
Proof. induction 1; cbn [sort fold_right]; auto; try (f_equal; assumption); try congruence. apply insert_comm. Qed.
Lemma insert_perm : forall a l, Permutation (a :: l) (insert a l).
Proof.
  induction l as [|x l IH]; cbn [insert]; auto. destruct (String.leb a x); auto. eapply perm_trans; [apply perm_swap|]. constructor. auto.
Qed.
Lemma perm_sort : forall l, Permutation l (sort l).
Proof. induction l as [|x l IH]; cbn [sort fold_right]; auto. eapply perm_trans; [constructor; exact IH|]. apply insert_perm. Qed.
Lemma insert_label_comm : forall a b l, fst a <> fst b -> insert_label a (insert_label b l) = insert_label b (insert_label a l).
Proof.
  intros a b l N. induction l as [|x l IH]; cbn [insert_label].
  - destruct (String.leb (fst a) (fst b)) eqn:E1, (String.leb (fst b) (fst a)) eqn:E2; auto.
    + destruct N. apply leb_anti; auto.
    + destruct (leb_total (fst a) (fst b)); congruence.
  - destruct (String.leb (fst b) (fst x)) eqn:Eb, (String.leb (fst a) (fst x)) eqn:Ea; cbn [insert_label]; rewrite ?Ea, ?Eb.
    + destruct (String.leb (fst a) (fst b)) eqn:E1, (String.leb (fst b) (fst a)) eqn:E2; rewrite ?Ea, ?Eb; auto.
      * destruct N. apply leb_anti; auto.
      * destruct (leb_total (fst a) (fst b)); congruence.
    + destruct (String.leb (fst a) (fst b)) eqn:E1; [|rewrite ?Ea; auto]. rewrite (leb_trans _ _ _ E1 Eb) in Ea. discriminate.
    + destruct (String.leb (fst b) (fst a)) eqn:E1; [|rewrite ?Eb; auto]. rewrite (leb_trans _ _ _ E1 Ea) in Eb. discriminate.
    + f_equal. exact IH.
Qed.
Lemma sort_labels_perm : forall l l', Permutation l l' -> NoDup (map fst l) -> sort_labels l = sort_labels l'.
Proof.
  induction 1; intros N; cbn [sort_labels fold_right]; auto.
  - inversion N. f_equal. apply IHPermutation. auto.
  - inversion N as [|? ? Q N']. inversion N' as [|? ? Q' N'']. apply insert_label_comm. intros E. apply Q. rewrite E. cbn. auto.
  - rewrite IHPermutation1 by auto. apply IHPermutation2. eapply Permutation_NoDup; [apply Permutation_map; eassumption|auto].
Qed.
Lemma insert_label_In : forall a l, Permutation (a :: l) (insert_label a l).
Proof.
  induction l as [|x l IH]; cbn [insert_label]; auto. destruct (String.leb (fst a) (fst x)); auto. eapply perm_trans; [apply perm_swap|]. constructor. auto.
Qed.
Lemma perm_sort_labels : forall l, Permutation l (sort_labels l).
Proof. induction l as [|x l IH]; cbn [sort_labels fold_right]; auto. eapply perm_trans; [constructor; exact IH|]. apply insert_label_In. Qed.

(** ** Canonical forms *)
(** Endpoints that the code treats as replicas of each other: same type; for pods the same namespace and workload; the same first profile and
    the same other profiles; the same labels; for external names the same name. *)
Definition same_profiles (a b : list string) : Prop :=
  match a, b with [], [] => True | p :: t, q :: u => p = q /\ Permutation t u | _, _ => False end.
Definition alike (e e' : endpoint) : Prop :=
  e_kind e = e_kind e' /\ (e_kind e = 2 -> e_name e = e_name e') /\
  (e_kind e <> 2 -> option_map n_name (e_ns e) = option_map n_name (e_ns e') /\ (e_ns e <> None -> e_workload e = e_workload e') /\
     same_profiles (e_profiles e) (e_profiles e') /\ forall k, assoc_s k (e_labels e) = assoc_s k (e_labels e')).
(** What the constructors guarantee: labels are dictionaries, exactly the pods have a namespace. *)
Definition wf_ep (e : endpoint) : Prop :=
  NoDup (map fst (e_labels e)) /\ (e_ns e <> None <-> e_kind e = 0) /\ e_kind e <= 2.
Lemma ep_form_alike : forall e e', wf_ep e -> wf_ep e' -> same_profiles (e_profiles e) (e_profiles e') -> (forall k, assoc_s k (e_labels e) = assoc_s k (e_labels e')) ->
  ep_form e = ep_form e'.
Proof.
  intros e e' (N & _) (N' & _) P L. unfold ep_form. f_equal.
  - f_equal. f_equal. unfold same_profiles in P. destruct (e_profiles e), (e_profiles e'); try tauto. destruct P as [-> P]. f_equal. apply sort_perm. auto.
  - f_equal. f_equal. apply sort_labels_perm; auto. apply same_dict_perm; auto.
Qed.
Lemma alike_form : forall e e', wf_ep e -> wf_ep e' -> alike e e' -> canonical_form e = canonical_form e'.
Proof.
  intros e e' W W' (K & D & H). unfold canonical_form. rewrite <- K. pose proof W as (N & X & L). pose proof W' as (N' & X' & L').
  destruct (e_kind e) as [|[|[|k]]] eqn:Ek; [| |apply D; auto|lia].
  - destruct (H ltac:(discriminate)) as (E1 & E2 & E3 & E4). destruct (e_ns e) as [n|] eqn:En; [|destruct (proj2 X eq_refl); auto].
    destruct (e_ns e') as [n'|] eqn:En'; [|discriminate]. injection E1 as ->. rewrite (E2 ltac:(discriminate)), (ep_form_alike e e' W W' E3 E4). auto.
  - destruct (H ltac:(discriminate)) as (E1 & E2 & E3 & E4). destruct (e_ns e); apply ep_form_alike; auto.
Qed.
(** The converse, for names and labels without the separators of the encoding. *)
Definition plain_text (c : ascii) (s : string) : Prop := has_char c s = false.
Definition names_ok (e : endpoint) : Prop :=
  (forall n, e_ns e = Some n -> plain_text "_" (n_name n) /\ plain_text "_" (e_workload e)) /\
  (forall p, In p (e_profiles e) -> plain_text "," p /\ prefix "(" p = false) /\
  (forall k v, In (k, v) (e_labels e) -> plain_text "," k /\ plain_text "," v).
Definition pieces (l : list string) : string := cat (map (fun p => ("," ++ p)%string) l).
Lemma pieces_split : forall l s, plain_text "," s -> (forall p, In p l -> plain_text "," p) -> split "," (s ++ pieces l)%string = s :: l.
Proof.
  induction l as [|p l IH]; intros s Hs H.
  - cbn. rewrite app_nil_s. apply split_nochar. exact Hs.
  - change (pieces (p :: l)) with (String "," (p ++ pieces l))%string. rewrite split_app_char by exact Hs. f_equal. apply IH; [apply H; left; auto|].
    intros q Hq. apply H. right. auto.
Qed.

Lemma pieces_inj : forall l l', (forall p, In p l -> plain_text "," p) -> (forall p, In p l' -> plain_text "," p) -> pieces l = pieces l' -> l = l'.
Proof.
  intros l l' H H' E. pose proof (pieces_split l "" eq_refl H) as X. pose proof (pieces_split l' "" eq_refl H') as X'. cbn [append] in X, X'. rewrite E in X. congruence.
Qed.
Lemma pieces_app : forall a b, pieces (a ++ b) = (pieces a ++ pieces b)%string.
Proof.
  induction a as [|x a IH]; intros b; [reflexivity|]. change (pieces ((x :: a) ++ b)) with (("," ++ x) ++ pieces (a ++ b))%string.
  change (pieces (x :: a)) with (("," ++ x) ++ pieces a)%string. rewrite IH, !app_assoc_s. reflexivity.
Qed.
Definition label_pieces (l : list (string * string)) : list string := flat_map (fun kv => ["(" ++ fst kv; snd kv ++ ")"]%string) l.
Lemma label_pieces_eq : forall l, cat (map (fun kv => (",(" ++ fst kv ++ "," ++ snd kv ++ ")")%string) l) = pieces (label_pieces l).
Proof.
  induction l as [|[k v] l IH]; [reflexivity|]. cbn [map cat fold_right label_pieces flat_map app]. fold (cat (map (fun kv => (",(" ++ fst kv ++ "," ++ snd kv ++ ")")%string) l)).
  rewrite IH. unfold pieces. cbn [map cat fold_right fst snd]. fold (cat (map (fun p => ("," ++ p)%string) (label_pieces l))). fold (label_pieces l). unfold cat.
  cbn [append]. rewrite !app_assoc_s. cbn [append]. rewrite !app_assoc_s. reflexivity.
Qed.
Lemma app_inj_r : forall a b c, (a ++ c)%string = (b ++ c)%string -> a = b.
Proof.
  induction a as [|x a IH]; intros [|y b] c E; auto.
  - exfalso. apply (f_equal String.length) in E. cbn in E. rewrite length_app_s in E. lia.
  - exfalso. apply (f_equal String.length) in E. cbn in E. rewrite length_app_s in E. lia.
  - cbn in E. injection E as -> E. f_equal. eapply IH; eassumption.
Qed.
Lemma label_pieces_inj : forall l l', label_pieces l = label_pieces l' -> l = l'.
Proof.
  induction l as [|[k v] l IH]; intros [|[k' v'] l'] E; try discriminate; auto. cbn in E. injection E as E1 E2 E3. apply app_inj_r in E2. subst. f_equal. auto.
Qed.
Lemma profiles_cut : forall a b c d, (forall p, In p a -> prefix "(" p = false) -> (forall p, In p c -> prefix "(" p = false) ->
  a ++ label_pieces b = c ++ label_pieces d -> a = c /\ b = d.
Proof.
  induction a as [|x a IH]; intros b [|y c] d Ha Hc E; cbn [app] in E.
  - split; auto. apply label_pieces_inj. auto.
  - exfalso. destruct b as [|[k v] b]; [discriminate|]. cbn in E. injection E as E1 _. specialize (Hc y (or_introl eq_refl)). rewrite <- E1 in Hc. destruct k; discriminate Hc.
  - exfalso. destruct d as [|[k v] d]; [discriminate|]. cbn in E. injection E as E1 _. specialize (Ha x (or_introl eq_refl)). rewrite E1 in Ha. destruct k; discriminate Ha.
  - injection E as -> E. destruct (IH b c d) as [-> ->]; auto; intros p Hp; [apply Ha|apply Hc]; right; auto.
Qed.
Definition ordered (l : list string) : list string := match l with [] => [] | p :: t => p :: sort t end.
Lemma ordered_In : forall l p, In p (ordered l) -> In p l.
Proof. intros [|x t] p; cbn; auto. intros [->|H]; auto. right. apply (Permutation_in _ (Permutation_sym (perm_sort t))). auto. Qed.
Lemma ep_form_pieces : forall e, ep_form e = pieces (ordered (e_profiles e) ++ label_pieces (sort_labels (e_labels e))).
Proof. intros e. rewrite pieces_app, <- label_pieces_eq. reflexivity. Qed.
Lemma ep_form_inj : forall e e', wf_ep e -> wf_ep e' -> names_ok e -> names_ok e' -> ep_form e = ep_form e' ->
  same_profiles (e_profiles e) (e_profiles e') /\ forall k, assoc_s k (e_labels e) = assoc_s k (e_labels e').
Proof.
  intros e e' (N & _) (N' & _) (_ & P & L) (_ & P' & L') E. rewrite !ep_form_pieces in E.
  assert (PL : forall e, (forall p, In p (e_profiles e) -> plain_text "," p /\ prefix "(" p = false) -> (forall k v, In (k, v) (e_labels e) -> plain_text "," k /\ plain_text "," v) ->
             forall p, In p (ordered (e_profiles e) ++ label_pieces (sort_labels (e_labels e))) -> plain_text "," p).
  { clear. intros e P L p H. apply in_app_or in H as [H|H]; [apply P; apply ordered_In; auto|]. apply in_flat_map in H as ([k v] & H & I).
    apply (Permutation_in _ (Permutation_sym (perm_sort_labels _))) in H. destruct (L k v H) as [L1 L2]. unfold plain_text in *.
    destruct I as [<-|[<-|[]]]; cbn [fst snd]; rewrite has_char_app; [rewrite L1|rewrite L2]; reflexivity. }
  apply pieces_inj in E; try (apply PL; assumption). apply profiles_cut in E as [E1 E2]; try (intros p Hp; apply ordered_In in Hp; [apply P in Hp|apply P' in Hp]; tauto).
  2:{ intros p Hp. apply ordered_In in Hp. apply P in Hp. tauto. }
  2:{ intros p Hp. apply ordered_In in Hp. apply P' in Hp. tauto. }
  split.
  - unfold ordered in E1. unfold same_profiles. destruct (e_profiles e) as [|p t], (e_profiles e') as [|q u]; try discriminate; auto. injection E1 as -> E1. split; auto.
    eapply perm_trans; [apply perm_sort|]. rewrite E1. apply Permutation_sym. apply perm_sort.
  - apply perm_same_dict; auto. eapply perm_trans; [apply perm_sort_labels|]. rewrite E2. apply Permutation_sym. apply perm_sort_labels.
Qed.
Lemma cut_at : forall c a b a' b', plain_text c a -> plain_text c a' -> (a ++ String c b)%string = (a' ++ String c b')%string -> a = a' /\ b = b'.
Proof.
  intros c. unfold plain_text. induction a as [|x a IH]; intros b [|y a'] b' H H' E; cbn in *.
  - injection E as ->. auto.
  - injection E as -> _. rewrite Ascii.eqb_refl in H'. discriminate.
  - injection E as <- _. rewrite Ascii.eqb_refl in H. discriminate.
  - injection E as -> E. apply orb_false_iff in H as [_ H], H' as [_ H']. destruct (IH b a' b' H H' E) as [-> ->]. auto.
Qed.
(** Pods with the same canonical form are alike; so are host endpoints, and external names. *)
Lemma form_alike : forall e e', wf_ep e -> wf_ep e' -> names_ok e -> names_ok e' -> e_kind e = e_kind e' -> canonical_form e = canonical_form e' -> alike e e'.
Proof.
  intros e e' W W' O O' K E. pose proof W as (N & X & L). pose proof W' as (N' & X' & L'). unfold canonical_form in E. rewrite <- K in E. split; auto.
  destruct (e_kind e) as [|[|[|k]]] eqn:Ek; [| |split; [auto|intros []; auto]|lia].
  - split; [discriminate|]. intros _. destruct (e_ns e) as [n|] eqn:En; [|destruct (proj2 X eq_refl); auto].
    destruct (e_ns e') as [n'|] eqn:En'; [|destruct (proj2 X' (eq_sym K)); auto].
    destruct (proj1 O n En) as [U1 U2]. destruct (proj1 O' n' En') as [U1' U2'].
    cbn [append] in E. apply cut_at in E as [E1 E2]; auto. apply cut_at in E2 as [E2 E3]; auto.
    destruct (ep_form_inj e e' W W') as [F1 F2]; auto; cbn; rewrite ?E1; auto.
  - split; [discriminate|]. intros _. assert (En : e_ns e = None) by (destruct (e_ns e); auto; assert (F : 1 = 0) by (apply X; discriminate); discriminate).
    assert (En' : e_ns e' = None) by (destruct (e_ns e'); auto; assert (F : e_kind e' = 0) by (apply X'; discriminate); congruence).
    rewrite En, En' in *. destruct (ep_form_inj e e' W W' O O' E) as [F1 F2]. split; auto. split; [intros []; auto|auto].
Qed.

(** ** Registration *)
(** How many of the endpoints [l] have the form [f]. *)
Definition occ (f : string) (l : list endpoint) : nat := List.length (filter (fun e => String.eqb (canonical_form e) f) l).
Lemma occ_app : forall f l l', occ f (l ++ l') = occ f l + occ f l'.
Proof. intros. unfold occ. rewrite filter_app, app_length. auto. Qed.
Lemma occ_one : forall f e, occ f [e] = if String.eqb (canonical_form e) f then 1 else 0.
Proof. intros. unfold occ. cbn. destruct (String.eqb (canonical_form e) f); reflexivity. Qed.
(** The registered endpoints and the counts after the endpoints [l]. *)
Record registered (peers : list endpoint) (counts : list (string * nat)) (l : list endpoint) : Prop := {
  rg_count : forall f, count_of counts f = Nat.min 2 (occ f l);
  rg_source : forall e, In e peers -> exists l1 l2, l = l1 ++ e :: l2 /\ occ (canonical_form e) l1 < 2;
  rg_kept : forall l1 e l2, l = l1 ++ e :: l2 -> occ (canonical_form e) l1 < 2 -> In (peer_of e) (map peer_of peers);
  rg_once : NoDup (map peer_of peers);
  rg_two : forall f, occ f peers <= count_of counts f
}.
Lemma registered_nil : registered [] [] [].
Proof.
  constructor; cbn; auto; try constructor; try tauto. intros [|x l1] e l2 E; discriminate.
Qed.
Lemma count_put : forall k n d f, count_of (dict_put k n d) f = if String.eqb f k then n else count_of d f.
Proof. intros. unfold count_of. rewrite assoc_put. destruct (String.eqb f k); reflexivity. Qed.
Lemma snoc_cases : forall A (l l1 l2 : list A) x e, l ++ [x] = l1 ++ e :: l2 -> (l2 = [] /\ l1 = l /\ e = x) \/ exists l2', l2 = l2' ++ [x] /\ l = l1 ++ e :: l2'.
Proof.
  intros A l l1 l2 x e E. destruct (exists_last (l := e :: l2)) as (m & y & Em); [discriminate|]. rewrite Em in E. rewrite app_assoc in E.
  apply app_inj_tail in E as [E1 ->]. destruct l2 as [|b l2] using rev_ind.
  - destruct m as [|a m]; [|destruct m; discriminate]. injection Em as ->. rewrite app_nil_r in E1. auto.
  - right. rewrite app_comm_cons in Em. apply app_inj_tail in Em as [<- ->]. exists l2. auto.
Qed.
Lemma registered_step : forall st e l, registered (ts_peers st) (ts_counts st) l ->
  registered (ts_peers (add_endpoint st e)) (ts_counts (add_endpoint st e)) (l ++ [e]).
Proof.
  intros st e l [C S K O T]. unfold add_endpoint. destruct (2 <=? count_of (ts_counts st) (canonical_form e)) eqn:E.
  - apply Nat.leb_le in E. constructor; auto.
    + intros f. rewrite occ_app, occ_one. specialize (C f). destruct (String.eqb_spec (canonical_form e) f) as [<-|N]; lia.
    + intros x Hx. destruct (S x Hx) as (l1 & l2 & -> & L). exists l1, (l2 ++ [e]). rewrite <- app_assoc. auto.
    + intros l1 x l2 Q L. apply snoc_cases in Q as [(-> & -> & ->)|(l2' & -> & ->)]; [|eapply K; eauto]. rewrite C in E. lia.
  - apply Nat.leb_gt in E. cbn [ts_peers ts_counts].
    set (ps := if existsb (fun x => peer_eqb (peer_of x) (peer_of e)) (ts_peers st) then ts_peers st else ts_peers st ++ [e]).
    assert (Sub : forall p, In p (map peer_of (ts_peers st)) -> In p (map peer_of ps)).
    { intros p Hp. unfold ps. destruct (existsb _ _); auto. rewrite map_app. apply in_or_app. auto. }
    assert (Me : In (peer_of e) (map peer_of ps)).
    { unfold ps. destruct (existsb _ _) eqn:X; [|rewrite map_app; apply in_or_app; right; left; auto].
      apply existsb_exists in X as (x & Hx & Q). apply peer_eqb_eq in Q. rewrite <- Q. apply in_map. auto. }
    constructor.
    + intros f. rewrite count_put, occ_app, occ_one, (String.eqb_sym f). destruct (String.eqb_spec (canonical_form e) f) as [<-|N]; [|rewrite C; lia]. rewrite C in E |- *. lia.
    + intros x Hx. assert (X : In x (ts_peers st) \/ x = e).
      { unfold ps in Hx. destruct (existsb _ _); auto. apply in_app_or in Hx as [Hx|[->|[]]]; auto. }
      destruct X as [X| ->].
      * destruct (S x X) as (l1 & l2 & -> & L). exists l1, (l2 ++ [e]). rewrite <- app_assoc. auto.
      * exists l, []. split; auto. rewrite C in E. lia.
    + intros l1 x l2 Q L. apply snoc_cases in Q as [(-> & -> & ->)|(l2' & -> & Q)]; auto. apply Sub. eapply K; eauto.
    + unfold ps. destruct (existsb _ _) eqn:X; auto. rewrite map_app. cbn. apply NoDup_rev in O. rewrite <- (rev_involutive (map peer_of (ts_peers st) ++ [peer_of e])).
      apply NoDup_rev. rewrite rev_app_distr. cbn. constructor; auto. rewrite <- in_rev. intros F. apply in_map_iff in F as (x & Q & Hx).
      assert (F : existsb (fun x => peer_eqb (peer_of x) (peer_of e)) (ts_peers st) = true) by (apply existsb_exists; exists x; split; auto; apply peer_eqb_eq; auto). congruence.
    + intros f. rewrite count_put, (String.eqb_sym f). specialize (T f). unfold ps. destruct (existsb _ _).
      * destruct (String.eqb_spec (canonical_form e) f) as [<-|N]; lia.
      * rewrite occ_app, occ_one. destruct (String.eqb_spec (canonical_form e) f) as [<-|N]; lia.
Qed.
(** Steps of the finders: the endpoints [le] are added in order, and namespaces and services may change. *)
Inductive steps : tstate -> list endpoint -> tstate -> Prop :=
| steps_nil : forall st st', ts_peers st' = ts_peers st -> ts_counts st' = ts_counts st -> steps st [] st'
| steps_add : forall st e st', ts_peers st' = ts_peers (add_endpoint st e) -> ts_counts st' = ts_counts (add_endpoint st e) -> steps st [e] st'
| steps_app : forall a l1 b l2 c, steps a l1 b -> steps b l2 c -> steps a (l1 ++ l2) c.
Lemma steps_registered : forall a le b, steps a le b -> forall l, registered (ts_peers a) (ts_counts a) l -> registered (ts_peers b) (ts_counts b) (l ++ le).
Proof.
  induction 1 as [st st' E1 E2|st e st' E1 E2|a l1 b l2 c _ IH1 _ IH2]; intros l H.
  - rewrite E1, E2, app_nil_r. auto.
  - rewrite E1, E2. apply registered_step. auto.
  - rewrite app_assoc. auto.
Qed.
