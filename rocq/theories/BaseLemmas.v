(** * Lemmas about [Base]. *)
From Verif Require Import Base.

(** ** outcome *)
Lemma bind_ret {A B} (m : outcome A) (f : A -> outcome B) b :
  bind m f = Ret b <-> exists a, m = Ret a /\ f a = Ret b.
Proof.
  destruct m as [a| |]; cbn; split.
  - intros H; exists a; auto.
  - intros (a' & E & H); injection E as <-; exact H.
  - discriminate.
  - intros (a' & E & _); discriminate.
  - discriminate.
  - intros (a' & E & _); discriminate.
Qed.

Lemma bind_assoc {A B C} (m : outcome A) (f : A -> outcome B) (g : B -> outcome C) :
  bind (bind m f) g = bind m (fun a => bind (f a) g).
Proof. destruct m; reflexivity. Qed.

Lemma assert_that_ret b : assert_that b = Ret tt <-> b = true.
Proof. destruct b; cbn; split; congruence. Qed.

Lemma assert_that_bind {B} b (k : unit -> outcome B) r :
  bind (assert_that b) k = Ret r <-> b = true /\ k tt = Ret r.
Proof. destruct b; cbn; split; intros H; intuition congruence. Qed.

Lemma unwrap_ret {A} (o : option A) a : unwrap o = Ret a <-> o = Some a.
Proof. destruct o; cbn; split; congruence. Qed.

Lemma idx_ret {A} (v : list A) i a : idx v i = Ret a <-> nth_error v i = Some a.
Proof. apply unwrap_ret. Qed.

Lemma checked_sub_ret a b c : checked_sub a b = Ret c <-> b <= a /\ c = a - b.
Proof.
  unfold checked_sub; destruct (Nat.leb_spec b a); split; intros Hx.
  - injection Hx as <-; auto.
  - destruct Hx as [_ ->]; reflexivity.
  - discriminate.
  - lia.
Qed.

Lemma checked_sub_le a b : b <= a -> checked_sub a b = Ret (a - b).
Proof. intros H; apply checked_sub_ret; auto. Qed.

Lemma mfold_app {S A} (f : S -> A -> outcome S) l1 l2 s :
  mfold f (l1 ++ l2) s = bind (mfold f l1 s) (mfold f l2).
Proof.
  revert s; induction l1 as [|x l1 IH]; intros s; cbn; [reflexivity|].
  destruct (f s x); cbn; auto.
Qed.

Lemma mfold_inv {S A} (P : S -> Prop) (f : S -> A -> outcome S) l :
  (forall s x s', In x l -> P s -> f s x = Ret s' -> P s') ->
  forall s s', P s -> mfold f l s = Ret s' -> P s'.
Proof.
  induction l as [|x l IH]; intros Hf s s' Hs H; cbn in H.
  - injection H as <-; exact Hs.
  - apply bind_ret in H as (s1 & H1 & H2).
    eapply IH; [| |exact H2].
    + intros; eapply Hf; eauto; right; assumption.
    + eapply Hf; eauto; left; reflexivity.
Qed.

(** A loop that always succeeds under an invariant. *)
Lemma mfold_total {S A} (P : S -> Prop) (f : S -> A -> outcome S) l :
  (forall s x, In x l -> P s -> exists s', f s x = Ret s' /\ P s') ->
  forall s, P s -> exists s', mfold f l s = Ret s' /\ P s'.
Proof.
  induction l as [|x l IH]; intros Hf s Hs; cbn.
  - eauto.
  - destruct (Hf s x (or_introl eq_refl) Hs) as (s1 & -> & H1); cbn.
    apply IH; [|exact H1]. intros; apply Hf; auto; right; assumption.
Qed.

Lemma mmap_ret {A B} (f : A -> outcome B) l r :
  mmap f l = Ret r <-> Forall2 (fun a b => f a = Ret b) l r.
Proof.
  revert r; induction l as [|x l IH]; intros r; cbn.
  - split.
    + intros H; injection H as <-; constructor.
    + intros H; inversion H; reflexivity.
  - split.
    + intros H. apply bind_ret in H as (y & Hy & H).
      apply bind_ret in H as (ys & Hys & H). injection H as <-.
      constructor; [exact Hy|]. apply IH; exact Hys.
    + intros H; inversion H as [|? y ? ys Hy Hys]; subst.
      rewrite Hy; cbn. apply IH in Hys; rewrite Hys; reflexivity.
Qed.

Lemma mmap_total {A B} (f : A -> outcome B) l :
  (forall x, In x l -> exists y, f x = Ret y) -> exists r, mmap f l = Ret r.
Proof.
  induction l as [|x l IH]; intros H; cbn; [eauto|].
  destruct (H x (or_introl eq_refl)) as (y & ->); cbn.
  destruct IH as (r & ->); [intros; apply H; right; assumption|]. cbn; eauto.
Qed.

Lemma Forall2_length {A B} (R : A -> B -> Prop) l r : Forall2 R l r -> length l = length r.
Proof. induction 1; cbn; auto. Qed.

Lemma mmap_length {A B} (f : A -> outcome B) l r : mmap f l = Ret r -> length r = length l.
Proof. intros H; apply mmap_ret in H; symmetry; eapply Forall2_length; exact H. Qed.

Lemma Forall2_nth {A B} (R : A -> B -> Prop) l r :
  Forall2 R l r -> forall i a, nth_error l i = Some a -> exists b, nth_error r i = Some b /\ R a b.
Proof.
  induction 1 as [|x y l r Hxy _ IH]; intros [|i] a Ha; cbn in *; try discriminate.
  - injection Ha as <-; eauto.
  - apply IH; exact Ha.
Qed.

Lemma Forall2_nth_r {A B} (R : A -> B -> Prop) l r :
  Forall2 R l r -> forall i b, nth_error r i = Some b -> exists a, nth_error l i = Some a /\ R a b.
Proof.
  induction 1 as [|x y l r Hxy _ IH]; intros [|i] a Ha; cbn in *; try discriminate.
  - injection Ha as <-; eauto.
  - apply IH; exact Ha.
Qed.

(** ** vectors *)
Lemma upd_length {A} i (f : A -> A) l : length (upd i f l) = length l.
Proof. revert i; induction l as [|x l IH]; intros [|i]; cbn; auto. Qed.

Lemma nth_error_upd {A} i (f : A -> A) l j :
  nth_error (upd i f l) j =
  if j =? i then option_map f (nth_error l j) else nth_error l j.
Proof.
  revert i j; induction l as [|x l IH]; intros [|i] [|j]; cbn; auto.
  - destruct (j =? i); reflexivity.
Qed.

Lemma nth_upd {A} i (f : A -> A) l j d : i < length l ->
  nth j (upd i f l) d = if j =? i then f (nth j l d) else nth j l d.
Proof.
  revert i j; induction l as [|x l IH]; intros [|i] [|j] H; cbn in *; auto; try lia.
  apply IH; lia.
Qed.

Lemma idx_upd_ret {A} (v : list A) i f r :
  idx_upd v i f = Ret r <-> i < length v /\ r = upd i f v.
Proof.
  unfold idx_upd; destruct (Nat.ltb_spec i (length v)); split; intros Hx.
  - injection Hx as <-; auto.
  - destruct Hx as [_ ->]; reflexivity.
  - discriminate.
  - lia.
Qed.

Lemma enum_from_length {A} (l : list A) n : length (enum_from n l) = length l.
Proof. revert n; induction l as [|x l IH]; intros n; cbn; auto. Qed.

Lemma enum_from_app {A} (l1 l2 : list A) n :
  enum_from n (l1 ++ l2) = enum_from n l1 ++ enum_from (n + length l1) l2.
Proof.
  revert n; induction l1 as [|x l1 IH]; intros n; cbn.
  - f_equal; lia.
  - rewrite IH. do 3 f_equal; lia.
Qed.

Lemma nth_error_enum_from {A} (l : list A) n i :
  nth_error (enum_from n l) i = option_map (fun x => (n + i, x)) (nth_error l i).
Proof.
  revert n i; induction l as [|x l IH]; intros n [|i]; cbn; auto.
  - rewrite Nat.add_0_r; reflexivity.
  - rewrite IH. destruct (nth_error l i); cbn; [do 2 f_equal; lia|reflexivity].
Qed.

Lemma in_enum {A} (l : list A) i x : In (i, x) (enum l) <-> nth_error l i = Some x.
Proof.
  unfold enum. split; intros H.
  - apply In_nth_error in H as (k & Hk). rewrite nth_error_enum_from in Hk.
    destruct (nth_error l k) as [y|] eqn:E; cbn in Hk; [|discriminate].
    injection Hk as <- <-. exact E.
  - apply nth_error_In with (n := i). rewrite nth_error_enum_from, H; reflexivity.
Qed.

Lemma map_snd_enum_from {A} (l : list A) n : map snd (enum_from n l) = l.
Proof. revert n; induction l as [|x l IH]; intros n; cbn; f_equal; auto. Qed.

Lemma map_fst_enum_from {A} (l : list A) n : map fst (enum_from n l) = seq n (length l).
Proof. revert n; induction l as [|x l IH]; intros n; cbn; f_equal; auto. Qed.

Lemma sum_app l1 l2 : sum (l1 ++ l2) = sum l1 + sum l2.
Proof. induction l1 as [|x l1 IH]; cbn; [reflexivity|unfold sum in *; lia]. Qed.

Lemma sum_repeat_0 n : sum (repeat 0 n) = 0.
Proof. induction n; cbn; auto. Qed.

Lemma skipn_skipn {A} a b (l : list A) : skipn a (skipn b l) = skipn (a + b) l.
Proof.
  revert l; induction b as [|b IH]; intros l; cbn.
  - rewrite Nat.add_0_r; reflexivity.
  - rewrite Nat.add_succ_r. destruct l; cbn; [apply skipn_nil|apply IH].
Qed.

(** ** find_map *)
Lemma find_map_seq_Some {B} (f : nat -> option B) a n b :
  find_map f (seq a n) = Some b <->
  exists k, a <= k < a + n /\ f k = Some b /\ forall j, a <= j < k -> f j = None.
Proof.
  revert a; induction n as [|n IH]; intros a; cbn.
  - split; [discriminate|]. intros (k & H & _); lia.
  - destruct (f a) as [c|] eqn:E.
    + split.
      * intros H; injection H as <-. exists a; split; [lia|split; [exact E|intros; lia]].
      * intros (k & Hk & Hf & Hn). destruct (Nat.eq_dec k a) as [->|Hne]; [congruence|].
        rewrite Hn in E by lia; discriminate.
    + rewrite IH. split; intros (k & Hk & Hf & Hn); exists k.
      * split; [lia|split; [exact Hf|]]. intros j Hj.
        destruct (Nat.eq_dec j a) as [->|]; [exact E|]. apply Hn; lia.
      * assert (k <> a) by congruence.
        split; [lia|split; [exact Hf|]]. intros j Hj; apply Hn; lia.
Qed.

Lemma find_map_seq_None {B} (f : nat -> option B) a n :
  find_map f (seq a n) = None <-> forall k, a <= k < a + n -> f k = None.
Proof.
  revert a; induction n as [|n IH]; intros a; cbn.
  - split; auto. intros; lia.
  - destruct (f a) as [c|] eqn:E.
    + split; [discriminate|]. intros H; rewrite H in E by lia; discriminate.
    + rewrite IH. split; intros H k Hk.
      * destruct (Nat.eq_dec k a) as [->|]; [exact E|]. apply H; lia.
      * apply H; lia.
Qed.

(** ** bytes *)
Lemma byte_eqb_eq a b : Byte.eqb a b = true <-> a = b.
Proof.
  split; [apply Byte.byte_dec_bl|apply Byte.byte_dec_lb].
Qed.

Lemma b2n_lt b : b2n b < 256.
Proof. unfold b2n; pose proof (Byte.to_nat_bounded b); lia. Qed.

Lemma n2b_b2n b : n2b (b2n b) = b.
Proof.
  unfold n2b. rewrite Nat.mod_small by apply b2n_lt.
  unfold b2n; rewrite Byte.of_to_nat; reflexivity.
Qed.

Lemma b2n_n2b n : b2n (n2b n) = n mod 256.
Proof.
  unfold n2b. destruct (Byte.of_nat (n mod 256)) as [b|] eqn:E.
  - apply Byte.to_of_nat in E. exact E.
  - apply Byte.of_nat_None_iff in E.
    pose proof (Nat.mod_upper_bound n 256). lia.
Qed.

Lemma b2n_n2b_small n : n < 256 -> b2n (n2b n) = n.
Proof. intros H; rewrite b2n_n2b; apply Nat.mod_small; exact H. Qed.

Lemma b2n_inj a b : b2n a = b2n b -> a = b.
Proof. intros H; rewrite <- (n2b_b2n a), <- (n2b_b2n b), H; reflexivity. Qed.

Lemma all_bytes_length : length all_bytes = 256.
Proof. unfold all_bytes; rewrite map_length, seq_length; reflexivity. Qed.

Lemma nth_error_all_bytes b : nth_error all_bytes (b2n b) = Some b.
Proof.
  unfold all_bytes. rewrite nth_error_map.
  rewrite (nth_error_nth' _ 0) by (rewrite seq_length; apply b2n_lt).
  rewrite seq_nth by apply b2n_lt. cbn. rewrite n2b_b2n; reflexivity.
Qed.

Lemma in_all_bytes b : In b all_bytes.
Proof. eapply nth_error_In; apply nth_error_all_bytes. Qed.

Lemma NoDup_all_bytes : NoDup all_bytes.
Proof.
  unfold all_bytes.
  assert (H : forall a n, a + n <= 256 -> NoDup (map n2b (seq a n))).
  { intros a n; revert a; induction n as [|n IH]; intros a Ha; cbn; constructor.
    - rewrite in_map_iff. intros (k & Hk & Hin). apply in_seq in Hin.
      apply (f_equal b2n) in Hk. rewrite !b2n_n2b_small in Hk by lia. lia.
    - apply IH; lia. }
  apply H; lia.
Qed.

(** ** byte strings *)
Lemma bstr_eqb_eq x y : bstr_eqb x y = true <-> x = y.
Proof.
  revert y; induction x as [|a x IH]; intros [|b y]; cbn; split; try congruence; auto.
  - rewrite andb_true_iff, byte_eqb_eq, IH. intros [-> ->]; reflexivity.
  - intros H; injection H as -> ->. rewrite andb_true_iff, byte_eqb_eq, IH; auto.
Qed.

Lemma bstr_eqb_refl x : bstr_eqb x x = true.
Proof. apply bstr_eqb_eq; reflexivity. Qed.

Lemma bstr_eqb_neq x y : bstr_eqb x y = false <-> x <> y.
Proof.
  rewrite <- bstr_eqb_eq. destruct (bstr_eqb x y); split; congruence.
Qed.

Lemma bstr_eqb_spec x y : reflect (x = y) (bstr_eqb x y).
Proof.
  destruct (bstr_eqb x y) eqn:E; constructor.
  - apply bstr_eqb_eq; exact E.
  - apply bstr_eqb_neq; exact E.
Qed.

Definition bstr_eq_dec (x y : bstr) : {x = y} + {x <> y} :=
  list_eq_dec Byte.byte_eq_dec x y.

(** ** maps *)
Lemma sget_sinsert {V} (m : smap V) k v k' :
  sget (sinsert m k v) k' = if bstr_eqb k' k then Some v else sget m k'.
Proof. reflexivity. Qed.

Lemma smem_true {V} (m : smap V) k : smem m k = true <-> exists v, sget m k = Some v.
Proof.
  unfold smem; destruct (sget m k) as [v|]; split; intros H; eauto.
  - discriminate.
  - destruct H; discriminate.
Qed.

Lemma smem_false {V} (m : smap V) k : smem m k = false <-> sget m k = None.
Proof. unfold smem; destruct (sget m k); split; congruence. Qed.

(** A map from strings to their position in a list. *)
Definition indexes (m : smap nat) (l : list bstr) : Prop :=
  forall s i, sget m s = Some i <-> nth_error l i = Some s.

Lemma indexes_NoDup m l : indexes m l -> NoDup l.
Proof.
  intros H. apply NoDup_nth_error. intros i j Hi E.
  destruct (nth_error l i) as [s|] eqn:Es.
  - apply H in Es. symmetry in E. apply H in E. congruence.
  - apply nth_error_None in Es; lia.
Qed.

Lemma indexes_In m l s : indexes m l -> (In s l <-> exists i, sget m s = Some i).
Proof.
  intros H; split.
  - intros Hin. apply In_nth_error in Hin as (i & Hi). exists i; apply H; exact Hi.
  - intros (i & Hi). apply H in Hi. eapply nth_error_In; exact Hi.
Qed.

Lemma indexes_None m l s : indexes m l -> (sget m s = None <-> ~ In s l).
Proof.
  intros H. rewrite (indexes_In m l s H). destruct (sget m s) as [i|]; split; intros Hx.
  - discriminate.
  - exfalso; apply Hx; eauto.
  - intros (i & Hi); discriminate.
  - reflexivity.
Qed.

Lemma indexes_snoc m l s :
  indexes m l -> ~ In s l -> indexes (sinsert m s (length l)) (l ++ [s]).
Proof.
  intros H Hs t i. rewrite sget_sinsert.
  destruct (bstr_eqb_spec t s) as [->|Hne].
  - split.
    + intros E; injection E as <-. rewrite nth_error_app2, Nat.sub_diag by lia; reflexivity.
    + intros E. destruct (Nat.lt_ge_cases i (length l)) as [Hlt|Hge].
      * rewrite nth_error_app1 in E by exact Hlt. exfalso; apply Hs; eapply nth_error_In; exact E.
      * rewrite nth_error_app2 in E by exact Hge.
        destruct (i - length l) as [|k] eqn:Ek; [f_equal; lia|].
        cbn in E; destruct k; discriminate.
  - etransitivity; [apply H|]. destruct (Nat.lt_ge_cases i (length l)) as [Hlt|Hge].
    + rewrite nth_error_app1 by exact Hlt; tauto.
    + rewrite nth_error_app2 by exact Hge. split; intros E.
      * assert (Hi : nth_error l i <> None) by congruence.
        apply nth_error_Some in Hi. exfalso; lia.
      * destruct (i - length l) as [|k]; cbn in E; [congruence|destruct k; discriminate].
Qed.

Lemma Forall2_impl {A B} (P Q : A -> B -> Prop) l l' :
  (forall a b, P a b -> Q a b) -> Forall2 P l l' -> Forall2 Q l l'.
Proof. intros H. induction 1; constructor; auto. Qed.
