(** * The pods of a label in ClusterInfo, and the elements of rules made from labels. *)
From Coq Require Import ZArith List Bool Arith Lia String Ascii.
From Verif Require Import IntervalModel IntervalFacts TextModel TextFacts PortProtoModel PortProtoFacts PeerModel PeerFacts PeerSetFacts PolicyModel PolicyLaws
                          PolicyFacts LayerFacts QueryModel QueryFacts YamlModel ClusterModel FWModel FWFacts.
Import ListNotations.
Local Open Scope string_scope.
Local Open Scope list_scope.
Local Open Scope nat_scope.

(** ** Dictionaries *)
Section Dict.
Context {K V : Type} (eqb : K -> K -> bool) (Heq : forall a b, eqb a b = true <-> a = b) (e0 : V).
Lemma lookup_update : forall k f d x, lookup eqb x e0 (update eqb k e0 f d) = if eqb x k then f (lookup eqb k e0 d) else lookup eqb x e0 d.
Proof using Heq.
  intros k f. induction d as [|[k' v] d IH]; intros x; cbn [update lookup]; [destruct (eqb x k); reflexivity|].
  destruct (eqb k k') eqn:E; cbn [lookup].
  - apply Heq in E. subst k'. destruct (eqb x k); reflexivity.
  - rewrite IH. destruct (eqb x k') eqn:F; [|reflexivity]. apply Heq in F. subst k'. destruct (eqb x k) eqn:G; [|reflexivity]. apply Heq in G. subst k.
    assert (eqb x x = true) by (apply Heq; reflexivity). congruence.
Qed.
Lemma update_keys : forall k f d x, In x (map fst (update eqb k e0 f d)) <-> x = k \/ In x (map fst d).
Proof using Heq.
  intros k f. induction d as [|[k' v] d IH]; intros x; cbn [update map fst In]; [split; intros [H|[]]; auto|].
  destruct (eqb k k') eqn:E; cbn [map fst In].
  - apply Heq in E. subst k'. split; [auto|]. intros [->|H]; auto.
  - rewrite IH. tauto.
Qed.
Lemma update_NoDup : forall k f d, NoDup (map fst d) -> NoDup (map fst (update eqb k e0 f d)).
Proof using Heq.
  intros k f. induction d as [|[k' v] d IH]; intros N; cbn [update map fst]; [constructor; [intros []|constructor]|].
  destruct (eqb k k') eqn:E; cbn [map fst]; [exact N|]. inversion N as [|? ? N1 N2]; subst. constructor; auto. rewrite update_keys. intros [->|H]; auto.
  assert (eqb k k = true) by (apply Heq; reflexivity). congruence.
Qed.
Lemma lookup_In : forall d x v, NoDup (map fst d) -> In (x, v) d -> lookup eqb x e0 d = v.
Proof using Heq.
  induction d as [|[k' v'] d IH]; intros x v N H; [destruct H|]. inversion N as [|? ? N1 N2]; subst. cbn [lookup]. destruct H as [H|H].
  - injection H as -> ->. assert (E : eqb x x = true) by (apply Heq; reflexivity). rewrite E. reflexivity.
  - destruct (eqb x k') eqn:E; [|auto]. apply Heq in E. subst k'. exfalso. apply N1. apply in_map_iff. exists (x, v). auto.
Qed.
Lemma In_lookup : forall d x, In x (map fst d) -> In (x, lookup eqb x e0 d) d.
Proof using Heq.
  induction d as [|[k' v'] d IH]; intros x H; [destruct H|]. cbn [lookup]. destruct (eqb x k') eqn:E; [apply Heq in E; subst k'; left; auto|].
  destruct H as [H|H]; [cbn in H; subst k'; assert (eqb x x = true) by (apply Heq; reflexivity); congruence|right; auto].
Qed.
Lemma lookup_none : forall d x, ~ In x (map fst d) -> lookup eqb x e0 d = e0.
Proof using Heq.
  induction d as [|[k' v'] d IH]; intros x H; [reflexivity|]. cbn [lookup]. destruct (eqb x k') eqn:E; [apply Heq in E; subst k'; destruct H; left; auto|]. apply IH. intros X. apply H. right. auto.
Qed.
End Dict.
Lemma lkey_eqb_eq : forall a b, lkey_eqb a b = true <-> a = b.
Proof. intros [a b] [c d]. unfold lkey_eqb. cbn [fst snd]. rewrite andb_true_iff, !String.eqb_eq. split; [intros [-> ->]; auto|intros H; injection H as -> ->; auto]. Qed.
Notation lget k v m := (lookup lkey_eqb (k, v) [] m).
Lemma lget_update : forall (m : lmap) k v (f : peerset -> peerset) k' v', lget k' v' (update lkey_eqb (k, v) [] f m) = if String.eqb k' k && String.eqb v' v then f (lget k v m) else lget k' v' m.
Proof. intros. rewrite (lookup_update lkey_eqb lkey_eqb_eq). reflexivity. Qed.
Lemma lget_key : forall (m : lmap) k v p, In p (lget k v m) -> In (k, v) (map fst m).
Proof.
  induction m as [|[k' s] m IH]; intros k v p H; [destruct H|]. cbn [lookup] in H. cbn [map fst In]. destruct (lkey_eqb (k, v) k') eqn:E; [apply lkey_eqb_eq in E; auto|right; eapply IH; eauto].
Qed.
Lemma pair_eqb : forall a b c d, (String.eqb a b && String.eqb c d) = true <-> a = b /\ c = d.
Proof. intros. rewrite andb_true_iff, !String.eqb_eq. tauto. Qed.
Lemma sadd_NoDup : forall v l, NoDup l -> NoDup (sadd v l).
Proof.
  intros v l N. unfold sadd. destruct (smem v l) eqn:E; auto. apply smem_false in E. induction N as [|x l Nx N IH]; cbn [app].
  - constructor; [intros []|constructor].
  - constructor; [|apply IH; intros H; apply E; right; auto]. rewrite in_app_iff. intros [H|[H|[]]]; auto. apply E. left. auto.
Qed.

(** ** Texts *)
Definition colon_free (s : string) : Prop := has_char ":" s = false.
Lemma concat_split : forall l, l <> [] -> Forall colon_free l -> split ":" (String.concat ":" l) = l.
Proof.
  induction l as [|x l IH]; intros N F; [congruence|]. inversion F; subst. destruct l as [|y l]; [apply split_nochar; auto|].
  change (String.concat ":" (x :: y :: l)) with (x ++ String ":" (String.concat ":" (y :: l)))%string. rewrite split_app_char by auto. rewrite IH; auto. discriminate.
Qed.
Lemma concat_inj : forall l m, List.length l = List.length m -> Forall colon_free l -> Forall colon_free m -> String.concat ":" l = String.concat ":" m -> l = m.
Proof.
  intros l m E F G H. destruct l as [|x l], m as [|y m]; try discriminate; auto. rewrite <- (concat_split (x :: l)), <- (concat_split (y :: m)), H by (auto; discriminate). reflexivity.
Qed.
Lemma split_free : forall c s, Forall (fun x => has_char c x = false) (split c s).
Proof.
  intros c. induction s as [|a s IH]; cbn [split]; [constructor; auto|]. destruct (Ascii.eqb a c) eqn:E; [constructor; auto|].
  destruct (split c s) as [|x r]; [constructor; [cbn; rewrite E; auto|constructor]|]. inversion IH; subst. constructor; [cbn; rewrite E; auto|auto].
Qed.
Lemma has_colon_char : forall k, has_colon k = has_char ":" k.
Proof. intros k. unfold has_colon. induction k as [|a k IH]; cbn [list_ascii_of_string existsb has_char]; [reflexivity|]. rewrite IH, Ascii.eqb_sym. reflexivity. Qed.

(** ** The maps *)
Section Labels.
Context (cl : cluster).
(** Kubernetes labels: one value for each key; no colons; "#NO_LABEL_VALUE" is not a label value. *)
Definition labels_plain (pods : peerset) : Prop := forall p, In p pods ->
  NoDup (map fst (cl_labels cl p)) /\ forall k v, In (k, v) (cl_labels cl p) -> colon_free k /\ colon_free v /\ v <> invalid_val.
Definition carries1 (p : peer) (k v : string) : Prop :=
  In (k, v) (cl_labels cl p) \/ v = invalid_val /\ forall w, ~ In (k, w) (cl_labels cl p).
(** A pod has the value "v1:v2" for the key "k1:k2". *)
Definition carries (k v : string) (p : peer) : Prop := exists ws, Forall2 (carries1 p) (split ":" k) ws /\ v = String.concat ":" ws.

Lemma lmap0_spec : forall pods, NoDup (map fst (lmap0 cl pods)) /\ forall k v p, In p (lget k v (lmap0 cl pods)) <-> In p pods /\ In (k, v) (cl_labels cl p).
Proof using.
  intros pods. unfold lmap0.
  assert (In1 : forall p ls m, NoDup (map fst m) -> NoDup (map fst (fold_left (fun m kv => update lkey_eqb kv [] (padd p) m) ls m)) /\
    forall k v q, In q (lget k v (fold_left (fun m kv => update lkey_eqb kv [] (padd p) m) ls m)) <-> In q (lget k v m) \/ q = p /\ In (k, v) ls).
  { intros p. induction ls as [|[k0 v0] ls IH]; intros m N; cbn [fold_left]; [split; auto; intros; cbn; tauto|].
    destruct (IH (update lkey_eqb (k0, v0) [] (padd p) m)) as [I1 I2]; [apply update_NoDup; [apply lkey_eqb_eq|auto]|]. split; auto. intros k v q. rewrite I2, lget_update.
    destruct (_ && _) eqn:E.
    - apply pair_eqb in E as [-> ->]. rewrite padd_In. cbn [In]. split; [intros [[->|H]|[-> H]]; auto|intros [H|[-> [H|H]]]; auto].
    - cbn [In]. split; [intros [H|[-> H]]; auto|]. intros [H|[-> [H|H]]]; auto. injection H as -> ->. rewrite !String.eqb_refl in E. discriminate. }
  assert (G : forall l m, NoDup (map fst m) -> let m' := fold_left (fun m p => fold_left (fun m kv => update lkey_eqb kv [] (padd p) m) (cl_labels cl p) m) l m in
    NoDup (map fst m') /\ forall k v q, In q (lget k v m') <-> In q (lget k v m) \/ In q l /\ In (k, v) (cl_labels cl q)).
  { induction l as [|p l IH]; intros m N; cbn [fold_left]; [split; auto; intros; cbn; tauto|]. destruct (In1 p (cl_labels cl p) m N) as [J1 J2]. destruct (IH _ J1) as [I1 I2]. split; auto.
    intros k v q. rewrite I2, J2. cbn [In]. split; [intros [[H|[-> H]]|[H1 H2]]; auto|intros [H|[[->|H1] H2]]; auto]. }
  destruct (G pods []) as [G1 G2]; [constructor|]. split; auto. intros k v p. rewrite G2. cbn. tauto.
Qed.
Definition key_of (m : lmap) (k : string) (p : peer) : Prop := exists v, In p (lget k v m).
Lemma invalid_step_spec : forall pods m lv k, NoDup (map fst m) -> let m' := fst (invalid_step cl pods (m, lv) k) in
  NoDup (map fst m') /\ (forall k' v, (k', v) <> (k, invalid_val) -> lget k' v m' = lget k' v m) /\
  (forall p, In p (lget k invalid_val m') <-> In p pods /\ ~ key_of m k p /\ exists q, key_of m k q /\ cl_ns cl q = cl_ns cl p).
Proof using.
  intros pods m lv k N. unfold invalid_step. cbn [fst]. set (wk := fold_left ps_union _ []).
  assert (Wk : forall p, In p wk <-> key_of m k p).
  { intros p. unfold wk. assert (G : forall l r, In p (fold_left ps_union l r) <-> In p r \/ exists s, In s l /\ In p s).
    { induction l as [|a l IH]; intros r; cbn [fold_left]; [split; [auto|intros [H|(s & [] & _)]; auto]|]. rewrite IH, ps_union_In. split.
      - intros [[H|H]|(s & H1 & H2)]; auto; right; [exists a; split; [left|]; auto|exists s; split; [right|]; auto].
      - intros [H|(s & [<-|H1] & H2)]; auto. right. exists s. auto. }
    rewrite G. split.
    - intros [[]|(s & Hs & Hp)]. apply in_map_iff in Hs as ([[k' v] s'] & <- & Hs). apply filter_In in Hs as [Hs E]. cbn [fst snd] in *. apply String.eqb_eq in E. subst k'.
      exists v. rewrite (lookup_In lkey_eqb lkey_eqb_eq [] m (k, v) s' N Hs). exact Hp.
    - intros (v & H). right. exists (lget k v m). split; auto. apply in_map_iff. exists ((k, v), lget k v m). split; auto. apply filter_In. cbn [fst]. split; [|apply String.eqb_refl].
      apply (In_lookup lkey_eqb lkey_eqb_eq). exact (lget_key _ _ _ _ H). }
  clearbody wk. split; [apply update_NoDup; [apply lkey_eqb_eq|exact N]|]. split.
  - intros k' v Ne. rewrite lget_update. destruct (_ && _) eqn:E; auto. apply pair_eqb in E as [-> ->]. congruence.
  - intros p. rewrite lget_update, !String.eqb_refl. cbn [andb]. rewrite filter_In, minus_In, nmem_In, nset_In, in_map_iff, Wk. split.
    + intros [[H1 H2] (q & E & Hq)]. split; auto. split; auto. exists q. split; auto. apply Wk. auto.
    + intros (H1 & H2 & q & Hq & E). split; auto. exists q. split; auto. apply Wk. auto.
Qed.
Lemma invalid_fold_spec : forall pods ks st, NoDup ks -> NoDup (map fst (fst st)) -> let m := fst st in let m' := fst (fold_left (invalid_step cl pods) ks st) in
  NoDup (map fst m') /\ (forall k v, ~ (In k ks /\ v = invalid_val) -> lget k v m' = lget k v m) /\
  (forall k p, In k ks -> (In p (lget k invalid_val m') <-> In p pods /\ ~ key_of m k p /\ exists q, key_of m k q /\ cl_ns cl q = cl_ns cl p)).
Proof using.
  intros pods. induction ks as [|a ks IH]; intros [m lv] Nk N; cbn [fold_left fst]; [split; auto; split; auto; intros k p []|]. cbn [fst] in N.
  inversion Nk as [|? ? Na Nk']; subst. destruct (invalid_step_spec pods m lv a N) as (S1 & S2 & S3).
  destruct (IH (invalid_step cl pods (m, lv) a) Nk' S1) as (I1 & I2 & I3). cbv zeta in S1, S2, S3, I1, I2, I3. set (m1 := fst (invalid_step cl pods (m, lv) a)) in *. split; auto. split.
  - intros k v H. rewrite I2; [apply S2|]; intros X; apply H; [injection X as -> ->; split; [left|]; auto|destruct X; split; [right|]; auto].
  - intros k p Hk. destruct (String.eqb_spec k a) as [E|E].
    + subst k. rewrite I2 by (intros [X _]; auto). apply S3.
    + destruct Hk as [Hk|Hk]; [congruence|]. rewrite (I3 k p Hk). assert (Y : forall q, key_of m1 k q <-> key_of m k q).
      { intros q. unfold key_of. split; intros (v & H); exists v; [rewrite S2 in H|rewrite S2]; auto; intros X; injection X as -> ->; congruence. }
      split; intros (H1 & H2 & q & H3 & H4); (split; [auto|]); (split; [intros X; apply H2; exact (proj2 (Y p) X) || exact (proj1 (Y p) X)|]); exists q; (split; [exact (proj1 (Y q) H3) || exact (proj2 (Y q) H3)|auto]).
Qed.
Lemma sadd_fold : forall {X} (f : X -> list string) l r, NoDup r -> NoDup (fold_left (fun r x => fold_left (fun r y => sadd y r) (f x) r) l r) /\
  forall v, In v (fold_left (fun r x => fold_left (fun r y => sadd y r) (f x) r) l r) <-> In v r \/ exists x, In x l /\ In v (f x).
Proof using.
  intros X f. assert (G : forall l r, NoDup r -> NoDup (fold_left (fun r y => sadd y r) l r) /\ forall v, In v (fold_left (fun r y => sadd y r) l r) <-> In v r \/ In v l).
  { induction l as [|a l IH]; intros r N; cbn [fold_left]; [split; auto; intros; cbn; tauto|]. destruct (IH (sadd a r) (sadd_NoDup a r N)) as [I1 I2]. split; auto. intros v. rewrite I2, sadd_In. cbn [In].
    split; [intros [[->|H]|H]; auto|intros [H|[->|H]]; auto]. }
  induction l as [|a l IH]; intros r N; cbn [fold_left]; [split; auto; intros v; split; [auto|intros [H|(x & [] & _)]; auto]|].
  destruct (G (f a) r N) as [G1 G2]. destruct (IH _ G1) as [I1 I2]. split; auto. intros v. rewrite I2, G2. split.
  - intros [[H|H]|(x & H1 & H2)]; auto; right; [exists a; split; [left|]; auto|exists x; split; [right|]; auto].
  - intros [H|(x & [<-|H1] & H2)]; auto. right. exists x. auto.
Qed.
Lemma flattened_In : forall allowed x, In x (flattened allowed) <-> exists k, In k allowed /\ In x (split ":" k).
Proof using.
  intros allowed x. unfold flattened. destruct (sadd_fold (fun k => split ":" k) allowed [] (NoDup_nil _)) as [_ H]. rewrite H. split; [intros [[]|H1]; auto|auto].
Qed.
(** The pods of a value of a simple key. *)
Definition value1 (pods : peerset) (x w : string) (p : peer) : Prop := In p pods /\ (In (x, w) (cl_labels cl p) \/
  w = invalid_val /\ (forall u, ~ In (x, u) (cl_labels cl p)) /\ exists q u, In q pods /\ In (x, u) (cl_labels cl q) /\ cl_ns cl q = cl_ns cl p).
Lemma add_invalid_spec : forall pods allowed lv, labels_plain pods -> let m := fst (add_invalid cl pods allowed (lmap0 cl pods, lv)) in
  NoDup (map fst m) /\ forall x, In x (flattened allowed) -> forall w p, In p (lget x w m) <-> value1 pods x w p.
Proof using.
  intros pods allowed lv LP. unfold add_invalid. cbn [fst]. destruct (lmap0_spec pods) as [N0 M0]. set (m0 := lmap0 cl pods) in *.
  assert (Ky : forall k p, key_of m0 k p <-> In p pods /\ exists u, In (k, u) (cl_labels cl p)).
  { intros k p. unfold key_of. split; [intros (v & H); apply M0 in H as [H1 H2]; split; eauto|intros [H1 (u & H2)]; exists u; apply M0; auto]. }
  pose proof (sadd_fold (fun e : lkey * peerset => [fst (fst e)]) m0 [] (NoDup_nil _)) as SF. cbn [fold_left] in SF. destruct SF as [Ks1 Ks2].
  set (keys := fold_left (fun r e => sadd (fst (fst e)) r) m0 []) in *.
  destruct (invalid_fold_spec pods (filter (fun k => smem k (flattened allowed)) keys) (m0, lv)) as (I1 & I2 & I3); [apply NoDup_filter; exact Ks1|exact N0|]. cbn [fst] in *.
  split; auto. intros x Hx w p. unfold value1. destruct (in_dec string_dec x keys) as [Hk|Hk].
  - destruct (string_dec w invalid_val) as [->|Nw].
    + rewrite I3; [|apply filter_In; split; auto; apply smem_In; auto]. rewrite Ky. split.
      * intros (H1 & H2 & q & Hq & E). split; auto. right. split; auto. split; [intros u Hu; apply H2; split; eauto|]. apply Ky in Hq as [Hq (u & Hu)]. exists q, u. auto.
      * intros (H1 & [H2|(_ & H2 & q & u & Hq & Hu & E)]); [exfalso; destruct (LP p H1) as [_ X]; destruct (X _ _ H2) as (_ & _ & X'); congruence|].
        split; auto. split; [intros [_ (u' & Hu')]; exact (H2 u' Hu')|]. exists q. split; auto. apply Ky. split; eauto.
    + rewrite I2 by (intros [_ X]; auto). rewrite M0. split; [intros [H1 H2]; auto|]. intros (H1 & [H2|(H2 & _)]); [auto|congruence].
  - assert (Nx : forall q u, In q pods -> ~ In (x, u) (cl_labels cl q)).
    { intros q u Hq Hu. apply Hk. apply Ks2. right. assert (X : In q (lget x u m0)) by (apply M0; auto). apply lget_key in X. apply in_map_iff in X as (e & E & He). exists e. split; auto. left. rewrite E. reflexivity. }
    rewrite I2 by (intros [X _]; apply filter_In in X as [X _]; auto). rewrite M0. split; [intros [H1 H2]; destruct (Nx p w H1 H2)|].
    intros (H1 & [H2|(_ & _ & q & u & Hq & Hu & _)]); [destruct (Nx p w H1 H2)|destruct (Nx q u Hq Hu)].
Qed.

(** *** Keys of several labels *)
Lemma product_In : forall {X} (ls : list (list X)) e, In e (product ls) <-> Forall2 (fun x l => In x l) e ls.
Proof using.
  intros X. induction ls as [|l ls IH]; intros e; cbn [product].
  - split; [intros [<-|[]]; constructor|intros H; inversion H; left; auto].
  - rewrite in_flat_map. split.
    + intros (x & Hx & H). apply in_map_iff in H as (t & <- & Ht). constructor; auto. apply IH. auto.
    + intros H. inversion H as [|x l' t ls' Hx Ht]; subst. exists x. split; auto. apply in_map. apply IH. auto.
Qed.
Lemma values_of_In : forall m k v, In v (values_of k m) <-> In (k, v) (map fst m).
Proof using.
  intros m k v. unfold values_of. assert (G : forall (m : lmap) r, In v (fold_left (fun r e => if String.eqb (fst (fst e)) k then sadd (snd (fst e)) r else r) m r) <-> In v r \/ In (k, v) (map fst m)).
  { clear m. induction m as [|[[k' v'] s] m IH]; intros r; cbn [fold_left map fst snd In]; [tauto|]. rewrite IH. destruct (String.eqb_spec k' k) as [E|E].
    - subst k'. rewrite sadd_In. split; [intros [[->|H]|H]; auto|intros [H|[H|H]]; auto]. injection H as ->. auto.
    - split; [tauto|]. intros [H|[H|H]]; auto. injection H as -> _. congruence. }
  rewrite G. cbn. tauto.
Qed.
Lemma common_fold : forall t s (p : peer), In p (fold_left common t s) <-> In p s /\ Forall (In p) t.
Proof using.
  induction t as [|a t IH]; intros s p; cbn [fold_left]; [split; [split; [auto|constructor]|tauto]|]. rewrite IH, common_In. split; [intros [[H1 H2] H3]; split; auto|intros [H1 H2]; inversion H2; auto].
Qed.
Section Conj.
Context (S : string -> string -> peer -> Prop) (base : lmap).   (* the simple values *)
Definition joint (keys ws : list string) (p : peer) : Prop := Forall2 (fun x w => S x w p) keys ws.
Definition simple_ok (keys : list string) (m : lmap) : Prop := forall x w p, In x keys -> (In p (lget x w m) <-> S x w p).
Lemma sets_spec : forall keys m ws p, simple_ok keys m -> List.length ws = List.length keys ->
  (Forall (In p) (map (fun kv => lookup lkey_eqb kv [] m) (combine keys ws)) <-> joint keys ws p).
Proof using.
  induction keys as [|x keys IH]; intros m ws p H E; destruct ws as [|w ws]; try discriminate; cbn [combine map].
  - split; constructor.
  - assert (H' : simple_ok keys m) by (intros y u q Hy; apply H; right; auto). injection E as E. split; intros X; inversion X; subst; constructor.
    + apply H; auto. left; auto.
    + apply (proj1 (IH m ws p H' E)). auto.
    + apply H; auto. left; auto.
    + apply (proj2 (IH m ws p H' E)). auto.
Qed.
Context (Free : forall keys ws p, joint keys ws p -> List.length ws = List.length keys /\ Forall colon_free ws).
Lemma conj_value_spec : forall k keys st ws, keys <> [] -> List.length ws = List.length keys -> simple_ok keys (fst st) -> let m := fst st in let m' := fst (conj_value cl k keys st ws) in
  (forall k' v, k' <> k -> lget k' v m' = lget k' v m) /\
  (forall v p, In p (lget k v m') -> In p (lget k v m) \/ v = String.concat ":" ws /\ joint keys ws p) /\
  (forall p, joint keys ws p -> In p (lget k (String.concat ":" ws) m')) /\
  (forall us p, joint keys us p -> In p (lget k (String.concat ":" us) m) -> In p (lget k (String.concat ":" us) m')).
Proof using Free.
  intros k keys [m lv] ws Nk E H. cbn [fst] in *. unfold conj_value. cbn [fst].
  set (pods := match map (fun kv => lookup lkey_eqb kv [] m) (combine keys ws) with [] => [] | s :: t => fold_left common t s end).
  assert (P : forall p, In p pods <-> joint keys ws p).
  { intros p. rewrite <- (sets_spec keys m ws p H E). unfold pods. destruct keys as [|x keys]; [congruence|]. destruct ws as [|w ws]; [discriminate|]. cbn [combine map].
    rewrite common_fold. split; [intros [H1 H2]; constructor; auto|intros X; inversion X; auto]. }
  clearbody pods. destruct pods as [|p0 pods].
  - cbn [fst]. split; auto. split; auto. split; [intros p Hp; apply P in Hp; destruct Hp|auto].
  - cbn [fst]. split; [|split; [|split]].
    + intros k' v Hk. rewrite lget_update. destruct (_ && _) eqn:Q; auto. apply pair_eqb in Q as [-> _]. congruence.
    + intros v p. rewrite lget_update. destruct (_ && _) eqn:Q; auto. apply pair_eqb in Q as [_ ->]. intros Hp. right. split; auto. apply P. exact Hp.
    + intros p Hp. rewrite lget_update, !String.eqb_refl. cbn [andb]. apply P. exact Hp.
    + intros us p Hu Hp. rewrite lget_update. destruct (_ && _) eqn:Q; auto. apply pair_eqb in Q as [_ Q]. assert (H0 : joint keys ws p0) by (apply P; left; auto).
      destruct (Free _ _ _ Hu) as [L1 F1]. destruct (Free _ _ _ H0) as [L2 F2]. assert (us = ws) by (apply concat_inj; auto; congruence). subst us. apply P. exact Hu.
Qed.
Lemma conj_fold_spec : forall k keys l st, keys <> [] -> ~ In k keys -> (forall ws, In ws l -> List.length ws = List.length keys) -> simple_ok keys (fst st) ->
  let m := fst st in let m' := fst (fold_left (conj_value cl k keys) l st) in
  (forall k' v, k' <> k -> lget k' v m' = lget k' v m) /\
  (forall v p, In p (lget k v m') -> In p (lget k v m) \/ exists ws, v = String.concat ":" ws /\ joint keys ws p) /\
  (forall us p, joint keys us p -> In us l \/ In p (lget k (String.concat ":" us) m) -> In p (lget k (String.concat ":" us) m')).
Proof using Free.
  intros k keys. induction l as [|a l IH]; intros st Nk Ni Hl H; cbn [fold_left]; [split; auto; split; [auto|intros us p _ [[]|X]; exact X]|].
  destruct (conj_value_spec k keys st a Nk (Hl a (or_introl eq_refl)) H) as (V1 & V2 & V3 & V4). cbv zeta in *.
  set (st1 := conj_value cl k keys st a) in *.
  assert (H1 : simple_ok keys (fst st1)). { intros x w p Hx. rewrite V1 by (intros ->; auto). apply H; auto. }
  destruct (IH st1 Nk Ni (fun ws Hw => Hl ws (or_intror Hw)) H1) as (I1 & I2 & I3). split; [intros; rewrite I1, V1; auto|]. split.
  - intros v p Hp. destruct (I2 v p Hp) as [X|X]; auto. destruct (V2 v p X) as [Y|[E Y]]; auto. right. exists a. auto.
  - intros us p Hu [[->|X]|X]; apply I3; auto.
Qed.
Lemma conj_step_spec : forall k st, has_colon k = true -> simple_ok (split ":" k) (fst st) -> let m := fst st in let m' := fst (conj_step cl st k) in
  (forall v p, In p (lget k v m) -> exists ws, v = String.concat ":" ws /\ joint (split ":" k) ws p) ->
  (forall k' v, k' <> k -> lget k' v m' = lget k' v m) /\
  (forall v p, In p (lget k v m') <-> exists ws, v = String.concat ":" ws /\ joint (split ":" k) ws p).
Proof using Free.
  intros k st Hk H m m' Hm. unfold m', conj_step.
  assert (Ni : ~ In k (split ":" k)). { intros X. pose proof (proj1 (Forall_forall _ _) (split_free ":" k) k X) as F. cbn beta in F. rewrite has_colon_char in Hk. congruence. }
  assert (Len : forall ws, In ws (product (map (fun x => values_of x (fst st)) (split ":" k))) -> List.length ws = List.length (split ":" k)).
  { intros ws Hw. apply product_In in Hw. assert (X : forall (X Y : Type) (R : X -> Y -> Prop) l m, Forall2 R l m -> List.length l = List.length m) by (intros X Y R l0 m0 F; induction F; cbn; congruence).
    apply X in Hw. rewrite map_length in Hw. exact Hw. }
  destruct (conj_fold_spec k (split ":" k) _ st (TextFacts.split_ne _ _) Ni Len H) as (I1 & I2 & I3). split; [exact I1|]. intros v p. split.
  - intros Hp. destruct (I2 v p Hp) as [X|X]; auto.
  - intros (ws & -> & J). apply I3; auto. left. apply product_In. clear - J H.
    assert (G : forall keys ws, joint keys ws p -> (forall x, In x keys -> In x (split ":" k)) -> Forall2 (fun x l => In x l) ws (map (fun x => values_of x (fst st)) keys)).
    { clear - H. intros keys ws J. induction J as [|x w keys ws Hx J IH]; intros Hs; cbn [map]; constructor; [|apply IH; intros y Hy; apply Hs; right; auto].
      apply values_of_In. apply (H x w p) in Hx; [|apply Hs; left; auto]. exact (lget_key _ _ _ _ Hx). }
    apply G; auto.
Qed.
End Conj.
Definition full_value (pods : peerset) (k v : string) (p : peer) : Prop := exists ws, joint (value1 pods) (split ":" k) ws p /\ v = String.concat ":" ws.
Lemma value1_free : forall pods x w p, labels_plain pods -> value1 pods x w p -> colon_free w.
Proof using. intros pods x w p LP [Hp [H|(-> & _)]]; [destruct (LP p Hp) as [_ X]; apply (X _ _ H)|reflexivity]. Qed.
Lemma joint_free : forall pods keys ws p, labels_plain pods -> joint (value1 pods) keys ws p -> List.length ws = List.length keys /\ Forall colon_free ws.
Proof using. intros pods keys ws p LP H. induction H as [|x w keys ws Hx H [IH1 IH2]]; [auto|]. split; [cbn; congruence|]. constructor; auto. eapply value1_free; eauto. Qed.
Lemma split_simple : forall k, has_colon k = false -> split ":" k = [k].
Proof using. intros k H. apply split_nochar. rewrite <- has_colon_char. exact H. Qed.
Lemma split_colon : forall k x, has_colon k = true -> In x (split ":" k) -> x <> k /\ has_colon x = false.
Proof using.
  intros k x H Hx. pose proof (proj1 (Forall_forall _ _) (split_free ":" k) x Hx) as F. cbn beta in F. rewrite has_colon_char in *. split; [congruence|exact F].
Qed.
Lemma conj_all_spec : forall pods allowed ks st, labels_plain pods -> (forall k, In k ks -> In k allowed /\ has_colon k = true) ->
  (forall x, has_colon x = false -> In x (flattened allowed) -> forall w p, In p (lget x w (fst st)) <-> value1 pods x w p) ->
  (forall k v p, has_colon k = true -> In p (lget k v (fst st)) -> full_value pods k v p) ->
  let m := fst st in let m' := fst (fold_left (conj_step cl) ks st) in
  (forall k v, has_colon k = false -> lget k v m' = lget k v m) /\
  (forall k v p, has_colon k = true -> In p (lget k v m') -> full_value pods k v p) /\
  (forall k v p, has_colon k = true -> In k ks \/ In p (lget k v m) -> full_value pods k v p -> In p (lget k v m')).
Proof using.
  intros pods allowed ks st LP. revert st. induction ks as [|a ks IH]; intros st Hks H1 H2; cbn [fold_left]; [split; auto; split; [auto|intros k v p _ [[]|X]; auto]|].
  destruct (Hks a (or_introl eq_refl)) as [Ha1 Ha2].
  assert (So : simple_ok (value1 pods) (split ":" a) (fst st)).
  { intros x w p Hx. apply H1; [exact (proj2 (split_colon a x Ha2 Hx))|]. apply flattened_In. exists a. auto. }
  destruct (conj_step_spec (value1 pods) (fun keys ws p => joint_free pods keys ws p LP) a st Ha2 So) as (S1 & S2).
  { intros v p Hp. destruct (H2 a v p Ha2 Hp) as (ws & J & E). exists ws. auto. }
  set (st1 := conj_step cl st a) in *.
  destruct (IH st1) as (I1 & I2 & I3); [intros k Hk; apply Hks; right; auto| | |].
  - intros x Hx Hf w p. rewrite S1 by congruence. apply H1; auto.
  - intros k v p Hk Hp. destruct (string_dec k a) as [->|Ne]; [apply S2 in Hp as (ws & E & J); exists ws; auto|]. rewrite S1 in Hp by auto. apply H2; auto.
  - split; [intros; rewrite I1, S1; auto; congruence|]. split; auto. intros k v p Hk Ho Hf. apply I3; auto.
    destruct (string_dec k a) as [->|Ne]; [right; apply S2; destruct Hf as (ws & J & E); exists ws; auto|]. destruct Ho as [[Ho|Ho]|Ho]; [congruence|auto|]. right. rewrite S1 by auto. exact Ho.
Qed.
(** ** What ClusterInfo knows about labels *)
Lemma lmap_keys : forall pods allowed lv k v p, labels_plain pods -> In p (lget k v (fst (add_invalid cl pods allowed (lmap0 cl pods, lv)))) -> colon_free k.
Proof using.
  intros pods allowed lv k v p LP H. unfold add_invalid in H. cbn [fst] in H. destruct (lmap0_spec pods) as [N0 M0].
  pose proof (sadd_fold (fun e : lkey * peerset => [fst (fst e)]) (lmap0 cl pods) [] (NoDup_nil _)) as SF. cbn [fold_left] in SF. destruct SF as [Ks1 Ks2].
  set (keys := fold_left (fun r e => sadd (fst (fst e)) r) (lmap0 cl pods) []) in *.
  destruct (invalid_fold_spec pods (filter (fun k => smem k (flattened allowed)) keys) (lmap0 cl pods, lv)) as (I1 & I2 & I3); [apply NoDup_filter; exact Ks1|exact N0|]. cbn [fst] in *.
  assert (D : In k (filter (fun k => smem k (flattened allowed)) keys) /\ v = invalid_val \/ ~ (In k (filter (fun k => smem k (flattened allowed)) keys) /\ v = invalid_val)).
  { destruct (in_dec string_dec k (filter (fun k => smem k (flattened allowed)) keys)), (string_dec v invalid_val); tauto. }
  destruct D as [[D ->]|D].
  - apply (I3 k p D) in H as (_ & _ & q & (u & Hq) & _). apply M0 in Hq as [Hq Hu]. destruct (LP q Hq) as [_ X]. apply (X _ _ Hu).
  - rewrite I2 in H by auto. apply M0 in H as [Hp Hu]. destruct (LP p Hp) as [_ X]. apply (X _ _ Hu).
Qed.
Theorem label_value : forall peers allowed, labels_plain (without_ip_block peers) -> forall k v p, In k allowed ->
  (In p (pods_of_label (cluster_info cl peers allowed) k v) <-> full_value (without_ip_block peers) k v p).
Proof using.
  intros peers allowed LP k v p Hk. unfold pods_of_label, cluster_info. cbn [ci_lmap]. set (pods := without_ip_block peers) in *.
  set (st := add_invalid cl pods allowed (lmap0 cl pods, lvals0 cl pods)).
  destruct (add_invalid_spec pods allowed (lvals0 cl pods) LP) as (_ & M). fold st in M.
  destruct (conj_all_spec pods allowed (filter has_colon allowed) st LP) as (I1 & I2 & I3).
  { intros x Hx. apply filter_In in Hx. exact Hx. }
  { intros x _ Hx. apply M; auto. }
  { intros x w q Hx Hq. unfold st in Hq. apply lmap_keys in Hq; auto. rewrite has_colon_char in Hx. unfold colon_free in Hq. congruence. }
  destruct (has_colon k) eqn:E.
  - split; [apply I2; auto|]. apply I3; auto. left. apply filter_In. auto.
  - rewrite I1 by auto. rewrite (M k); [|apply flattened_In; exists k; split; auto; rewrite split_simple by auto; left; auto].
    unfold full_value. rewrite (split_simple k E). split.
    + intros H. exists [v]. split; [constructor; [exact H|constructor]|reflexivity].
    + intros (ws & J & ->). inversion J as [|x w xs ws' Hw J']; subst. inversion J'; subst. exact Hw.
Qed.
Lemma joint_carries : forall pods keys ws p, joint (value1 pods) keys ws p -> Forall2 (carries1 p) keys ws.
Proof using. intros pods keys ws p H. induction H as [|x w keys ws Hx H IH]; constructor; auto. destruct Hx as [_ [Hx|(-> & Hx & _)]]; [left; auto|right; auto]. Qed.
(** The pods of a value in one namespace are those that carry it, provided there is one. *)
Theorem label_pods : forall peers allowed, labels_plain (without_ip_block peers) -> forall k v q, In k allowed -> In q (pods_of_label (cluster_info cl peers allowed) k v) ->
  forall p, In p (without_ip_block peers) -> cl_ns cl p = cl_ns cl q -> (In p (pods_of_label (cluster_info cl peers allowed) k v) <-> carries k v p).
Proof using.
  intros peers allowed LP k v q Hk Hq p Hp En. rewrite label_value in * by auto. destruct Hq as (us & Ju & Eu). split.
  - intros (ws & J & ->). exists ws. split; auto. apply joint_carries in J. exact J.
  - intros (ws & J & ->). exists ws. split; auto.
    assert (F : List.length ws = List.length (split ":" k) /\ Forall colon_free ws).
    { clear Eu Ju. induction J as [|x w keys ws Hx J [IH1 IH2]]; [auto|]. split; [cbn; congruence|]. constructor; auto.
      destruct Hx as [Hx|[-> _]]; [destruct (LP p Hp) as [_ X]; apply (X _ _ Hx)|reflexivity]. }
    destruct F as [L1 F1]. destruct (joint_free _ _ _ _ LP Ju) as [L2 F2]. assert (ws = us) by (apply concat_inj; auto; congruence). subst us. clear - J Ju Hp En.
    unfold joint. induction J as [|x w keys ws Hx J IH]; constructor; [|apply IH; inversion Ju; auto]. split; auto. destruct Hx as [Hx|[-> Hx]]; auto. right. split; auto. split; auto.
    inversion Ju as [|? ? ? ? Hu _]; subst. destruct Hu as [Hq [Hu|(_ & _ & q' & u & H1 & H2 & H3)]]; [exists q, invalid_val; auto|exists q', u; split; auto; split; auto; congruence].
Qed.
End Labels.

(** ** The elements that occur in rules *)
Section Occur.
Context (cl : cluster) (ci : cinfo).
(** An element made from labels has values, and every value has a pod. *)
Definition elem_good (e : elem) : Prop :=
  match e with
  | ELabels k vs n => In k (ci_allowed ci) /\ vs <> [] /\ forall v, In v vs -> exists q, In q (pods_of_label ci k v) /\ In q (ns_pods cl ci n)
  | EDns p => is_block p = false | _ => True end.
Lemma covered_good : forall pods n k v, In v (fst (covered_values cl ci pods n k)) -> exists q, In q (pods_of_label ci k v) /\ In q (ns_pods cl ci n).
Proof using.
  intros pods n k. unfold covered_values. set (step := fun (r : list string * peerset) v => _).
  assert (G : forall vs r, (forall v, In v (fst r) -> exists q, In q (pods_of_label ci k v) /\ In q (ns_pods cl ci n)) ->
    forall v, In v (fst (fold_left step vs r)) -> exists q, In q (pods_of_label ci k v) /\ In q (ns_pods cl ci n)).
  { induction vs as [|w vs IH]; intros r H; cbn [fold_left]; [exact H|]. apply IH. intros v Hv. unfold step in Hv. destruct (_ && _ && _) eqn:E in Hv; [|auto]. cbn [fst] in Hv.
    apply sadd_In in Hv as [->|Hv]; [|auto]. apply andb_true_iff in E as [E _]. apply andb_true_iff in E as [E _].
    destruct (common (pods_of_label ci k w) (ns_pods cl ci n)) as [|q t] eqn:Ec; [discriminate|]. exists q. apply common_In. rewrite Ec. left. reflexivity. }
  apply G. intros v [].
Qed.
Lemma choose_good : forall n pods opts rem, (forall k vs g, In (k, (vs, g)) opts -> elem_good (ELabels k vs n)) -> forall e, In e (fst (choose n pods opts rem)) -> elem_good e.
Proof using.
  intros n pods. induction opts as [|[k [vs g]] opts IH]; intros rem H e He; cbn [choose] in He; [destruct He|].
  assert (Hh : forall e, In e (if subset_of (common g pods) rem then [ELabels k vs n] else []) -> elem_good e).
  { intros e' He'. destruct (subset_of _ _); [|destruct He']. destruct He' as [<-|[]]. apply (H k vs g). left. auto. }
  destruct (if subset_of (common g pods) rem then minus rem g else rem) as [|q r]; [apply Hh; exact He|]. cbn [fst] in He. apply in_app_iff in He as [He|He]; [apply Hh; exact He|].
  apply (IH (q :: r)); auto. intros k' vs' g' H'. apply (H k' vs' g'). right. auto.
Qed.
Lemma group_good : forall single pods n e, In e (group_pods cl ci single pods n) -> elem_good e.
Proof using.
  intros single pods n e H. unfold group_pods in H. apply in_app_iff in H as [H|H].
  - revert H. apply choose_good. intros k vs g Hk. apply (proj1 (sort_options_In _ _)) in Hk. unfold label_options in Hk. apply in_flat_map in Hk as (k' & Ha & Hk).
    destruct (_ && _) eqn:B in Hk; [|destruct Hk]. destruct Hk as [Hk|[]]. injection Hk as -> E. cbn [elem_good]. split; auto. split.
    { apply andb_true_iff in B as [B _]. rewrite E in B. cbn [fst] in B. intros ->. discriminate. } intros v Hv. apply (covered_good pods n k v). rewrite E. exact Hv.
  - destruct (snd _); [destruct H|]. destruct H as [<-|[]]. exact I.
Qed.
Lemma loop_good : forall single fuel pods r, group_loop cl ci single fuel pods = Some r -> forall e, In e r -> elem_good e.
Proof using.
  intros single. induction fuel as [|fuel IH]; intros [|p pods] r E; cbn [group_loop] in E; try discriminate; try (injection E as <-; intros e []).
  destruct (group_loop _ _ _ _ _) as [r'|] eqn:E'; [|discriminate]. cbn [bind] in E. injection E as <-. intros e He. apply in_app_iff in He as [He|He]; [apply (group_good _ _ _ _ He)|apply (IH _ _ E' e He)].
Qed.
Lemma elements_good : forall single b r, elements cl ci single b = Some r -> forall e, In e r -> elem_good e.
Proof using.
  intros single [s|l] r E; cbn [elements] in E; [|injection E as <-; intros e [<-|[]]; exact I].
  destruct (ps_diff _ _) as [rest|]; [|discriminate]. cbn [bind] in E. destruct (group_loop _ _ _ _ _) as [r'|] eqn:E'; [|discriminate]. cbn [bind] in E. injection E as <-.
  intros e He. apply in_app_iff in He as [He|He]; [apply (loop_good _ _ _ _ E' e He)|]. apply in_map_iff in He as ([k n|m] & <- & _); [reflexivity|exact I].
Qed.
Definition rules_good (l : list (elem * elem)) : Prop := forall e, In e l -> elem_good (fst e) /\ elem_good (snd e).
Lemma rules_good_app : forall l m, rules_good l -> rules_good m -> rules_good (l ++ m).
Proof using. intros l m H1 H2 e He. apply in_app_iff in He as [He|He]; auto. Qed.
Lemma pairs_good : forall single l r, rules_of_pairs cl ci single l = Some r -> rules_good r.
Proof using.
  intros single l r E. unfold rules_of_pairs in E. destruct (mapM _ l) as [rs|] eqn:M; [|discriminate]. cbn [bind] in E. injection E as <-. revert rs M.
  induction l as [|b l IH]; intros rs M; cbn [mapM] in M; [injection M as <-; intros e []|].
  destruct (rules_of_pair cl ci single b) as [r1|] eqn:E1; [|discriminate]. cbn [bind] in M. destruct (mapM _ l) as [r2|]; [|discriminate]. cbn [bind] in M. injection M as <-.
  cbn [List.concat]. apply rules_good_app; [|apply IH; reflexivity]. unfold rules_of_pair in E1.
  destruct (elements cl ci single (fst b)) as [l1|] eqn:F1; [|discriminate]. cbn [bind] in E1. destruct (elements cl ci single (snd b)) as [l2|] eqn:F2; [|discriminate]. cbn [bind] in E1. injection E1 as <-.
  intros e He. apply in_flat_map in He as (x & Hx & He). apply in_map_iff in He as (y & <- & Hy). cbn [fst snd]. split; [apply (elements_good _ _ _ F1 x Hx)|apply (elements_good _ _ _ F2 y Hy)].
Qed.
Section Ops.
Context {C : Type} (A : cops C) (Q : qops C) (F : fops (C:=C)) (single : bool).
Lemma cubes_good : forall o r, rules_of_cubes cl ci single o = Some r -> rules_good r.
Proof using. intros [ks|] r E; [|discriminate]. unfold rules_of_cubes in E. cbn [bind] in E. destruct (forallb _ ks); [|discriminate]. exact (pairs_good _ _ _ E). Qed.
Lemma props_good : forall x r, rules_of_props cl ci A F single x = Some r -> rules_good r.
Proof using.
  assert (G : forall (b : bool) o r, (if b then rules_of_cubes cl ci single o else Some []) = Some r -> rules_good r).
  { intros [|] o r E; [exact (cubes_good _ _ E)|]. injection E as <-. intros e []. }
  intros x r E. unfold rules_of_props in E. cbv zeta in E.
  match type of E with bind ?a _ = _ => destruct a as [r1|] eqn:E1; [|discriminate] end. cbn [bind] in E.
  match type of E with bind ?a _ = _ => destruct a as [r2|] eqn:E2; [|discriminate] end. cbn [bind] in E.
  match type of E with bind ?a _ = _ => destruct a as [r3|] eqn:E3; [|discriminate] end. cbn [bind] in E. injection E as <-.
  apply rules_good_app; [exact (G _ _ _ E1)|]. apply rules_good_app; [exact (G _ _ _ E2)|exact (G _ _ _ E3)].
Qed.
Lemma cs_good : forall pp cont r, cs_rules cl ci A Q F single pp cont = Some r -> rules_good r.
Proof using.
  intros pp cont r E. unfold cs_rules in E.
  match type of E with bind ?a _ = _ => destruct a as [g|]; [|discriminate] end. cbn [bind] in E.
  match type of E with bind ?a _ = _ => destruct a as [r1|] eqn:E1; [|discriminate] end. cbn [bind] in E.
  match type of E with bind ?a _ = _ => destruct a as [r2|] eqn:E2; [|discriminate] end. cbn [bind] in E.
  match type of E with bind ?a _ = _ => destruct a as [r3|] eqn:E3; [|discriminate] end. cbn [bind] in E. injection E as <-.
  apply rules_good_app; [exact (pairs_good _ _ _ E1)|]. apply rules_good_app; [exact (props_good _ _ E2)|exact (pairs_good _ _ _ E3)].
Qed.
Lemma minimized_good : forall restr h r, minimized_rules cl ci A Q F single restr h = Some r -> forall p l, In (p, l) r -> rules_good l.
Proof using.
  intros restr h r E. unfold minimized_rules in E. cbv zeta in E. set (all := props_to_peers _ _) in E. destruct (mapM _ all) as [rs|] eqn:M; [|discriminate]. cbn [bind] in E. injection E as <-.
  revert rs M. generalize all at 2. intros l. induction l as [|e l IH]; intros rs M p x Hx; cbn [mapM] in M; [injection M as <-; destruct Hx|].
  match type of M with bind ?a _ = _ => destruct a as [r1|] eqn:E1; [|discriminate] end. cbn [bind] in M. destruct (mapM _ l) as [r2|] eqn:M2; [|discriminate]. cbn [bind] in M. injection M as <-.
  cbn [List.concat] in Hx. apply in_app_iff in Hx as [Hx|Hx]; [|exact (IH r2 eq_refl p x Hx)]. destruct (c_bool A (fst e)); [|injection E1 as <-; destruct Hx].
  destruct (cs_rules _ _ _ _ _ _ _ _) as [r0|] eqn:E0; [|discriminate]. cbn [bind] in E1. injection E1 as <-. destruct Hx as [Hx|[]]. injection Hx as <- <-. exact (cs_good _ _ _ E0).
Qed.
End Ops.
End Occur.
