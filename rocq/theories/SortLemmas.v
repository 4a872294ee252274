(** * Stable sorting and the orders used by the code. *)
From Verif Require Import Base BaseLemmas TokenSetModel.

Section Sort.
Context {A : Type} (leb : A -> A -> bool).

Lemma insert_perm x l : Permutation (insert_stable leb x l) (x :: l).
Proof.
  induction l as [|y l IH]; cbn; [reflexivity|]. destruct (leb x y); [reflexivity|].
  rewrite IH. apply perm_swap.
Qed.

Lemma sort_perm l : Permutation (stable_sort leb l) l.
Proof. induction l as [|x l IH]; cbn; [constructor|]. rewrite insert_perm. constructor; exact IH. Qed.

Lemma sort_length l : length (stable_sort leb l) = length l.
Proof. apply Permutation_length, sort_perm. Qed.

Definition ord (x y : A) : Prop := leb x y = true.

Hypothesis total : forall x y, leb x y = true \/ leb y x = true.
Hypothesis trans : forall x y z, leb x y = true -> leb y z = true -> leb x z = true.

Lemma insert_sorted x l : StronglySorted ord l -> StronglySorted ord (insert_stable leb x l).
Proof.
  induction 1 as [|y l Hl IH Hy]; cbn; [repeat constructor|].
  destruct (leb x y) eqn:E.
  - constructor; [constructor; assumption|]. constructor; [exact E|].
    eapply Forall_impl; [|exact Hy]. intros z Hz. eapply trans; [exact E|exact Hz].
  - constructor; [exact IH|]. apply Forall_forall. intros z Hz.
    apply (Permutation_in _ (insert_perm x l)) in Hz. destruct Hz as [<-|Hz].
    + destruct (total x y); [congruence|assumption].
    + rewrite Forall_forall in Hy. apply Hy; exact Hz.
Qed.

Lemma sort_sorted l : StronglySorted ord (stable_sort leb l).
Proof. induction l as [|x l IH]; cbn; [constructor|]. apply insert_sorted; exact IH. Qed.

Lemma insert_id x l : Forall (ord x) l -> insert_stable leb x l = x :: l.
Proof. destruct l as [|y l]; cbn; [reflexivity|]. intros H; inversion H; subst. unfold ord in *. rewrite H2; reflexivity. Qed.

Lemma sort_id l : StronglySorted ord l -> stable_sort leb l = l.
Proof.
  induction 1 as [|x l Hl IH Hx]; cbn; [reflexivity|]. unfold stable_sort in IH. rewrite IH.
  apply insert_id; exact Hx.
Qed.

(** Sorted permutations are equal if the order separates their elements. *)
Lemma sorted_unique l1 l2 :
  (forall x y, In x l1 -> In y l1 -> leb x y = true -> leb y x = true -> x = y) ->
  Permutation l1 l2 -> StronglySorted ord l1 -> StronglySorted ord l2 -> l1 = l2.
Proof.
  revert l2; induction l1 as [|x l1 IH]; intros l2 Hanti Hp Hs1 Hs2.
  - symmetry; apply Permutation_nil; exact Hp.
  - destruct l2 as [|y l2]; [apply Permutation_sym, Permutation_nil in Hp; discriminate|].
    inversion Hs1 as [|? ? Hs1' Hx]; subst. inversion Hs2 as [|? ? Hs2' Hy]; subst.
    rewrite Forall_forall in Hx, Hy.
    assert (Hyin : In y (x :: l1)) by (apply (Permutation_in _ (Permutation_sym Hp)); left; reflexivity).
    assert (Hxin : In x (y :: l2)) by (apply (Permutation_in _ Hp); left; reflexivity).
    assert (x = y) as <-.
    { destruct Hyin as [E|Hyin]; [exact E|]. destruct Hxin as [E|Hxin]; [symmetry; exact E|].
      apply Hanti; [left; reflexivity|right; exact Hyin|apply Hx; exact Hyin|apply Hy; exact Hxin]. }
    f_equal. apply IH; auto.
    + intros a b Ha Hb. apply Hanti; right; assumption.
    + eapply Permutation_cons_inv; exact Hp.
Qed.

Lemma sort_unique l1 l2 :
  (forall x y, In x l1 -> In y l1 -> leb x y = true -> leb y x = true -> x = y) ->
  Permutation l1 l2 -> stable_sort leb l1 = stable_sort leb l2.
Proof.
  intros Hanti Hp. apply sorted_unique; try apply sort_sorted.
  - intros x y Hx Hy. apply Hanti; eapply Permutation_in; eauto using sort_perm.
  - rewrite !sort_perm. exact Hp.
Qed.
End Sort.

Lemma sort_map {A B} (f : A -> B) (lebB : B -> B -> bool) (lebA : A -> A -> bool) l :
  (forall x y, In x l -> In y l -> lebA x y = lebB (f x) (f y)) ->
  stable_sort lebB (map f l) = map f (stable_sort lebA l).
Proof.
  induction l as [|x l IH]; intros H; cbn; [reflexivity|].
  unfold stable_sort in IH. rewrite IH by (intros; apply H; right; assumption).
  fold (stable_sort lebA l).
  assert (Hin : forall y, In y (stable_sort lebA l) -> In y l)
    by (intros y Hy; eapply Permutation_in; [apply sort_perm|exact Hy]).
  revert Hin. generalize (stable_sort lebA l) as s. induction s as [|y s IHs]; intros Hin; cbn; [reflexivity|].
  rewrite <- (H x y); [|left; reflexivity|right; apply Hin; left; reflexivity].
  destruct (lebA x y); [reflexivity|]. cbn. f_equal. apply IHs. intros z Hz; apply Hin; right; exact Hz.
Qed.

(** ** Orders *)
Definition good_cmp {A} (cmp : A -> A -> comparison) : Prop :=
  (forall x y, cmp x y = Eq <-> x = y) /\
  (forall x y, cmp y x = CompOpp (cmp x y)) /\
  (forall x y z, cmp_leb (cmp x y) = true -> cmp_leb (cmp y z) = true -> cmp_leb (cmp x z) = true).

Lemma cmp_total {A} (cmp : A -> A -> comparison) x y : good_cmp cmp ->
  cmp_leb (cmp x y) = true \/ cmp_leb (cmp y x) = true.
Proof. intros (_ & H & _). rewrite (H x y). destruct (cmp x y); cbn; auto. Qed.

Lemma cmp_antisym {A} (cmp : A -> A -> comparison) x y : good_cmp cmp ->
  cmp_leb (cmp x y) = true -> cmp_leb (cmp y x) = true -> x = y.
Proof.
  intros (He & H & _). rewrite (H x y). rewrite <- He. destruct (cmp x y); cbn; congruence.
Qed.

Lemma nat_cmp_leb a b : cmp_leb (Nat.compare a b) = (a <=? b).
Proof.
  destruct (Nat.compare_spec a b), (Nat.leb_spec a b); cbn; auto; lia.
Qed.

Lemma bstr_cmp_eq x y : bstr_cmp x y = Eq <-> x = y.
Proof.
  revert y; induction x as [|a x IH]; intros [|b y]; cbn; split; try congruence; auto.
  - destruct (Nat.compare_spec (b2n a) (b2n b)) as [E|E|E]; try discriminate.
    intros H. apply IH in H as ->. apply b2n_inj in E as ->. reflexivity.
  - intros E; injection E as -> ->. rewrite Nat.compare_refl. apply IH; reflexivity.
Qed.

Lemma bstr_cmp_opp x y : bstr_cmp y x = CompOpp (bstr_cmp x y).
Proof.
  revert y; induction x as [|a x IH]; intros [|b y]; cbn; auto.
  rewrite (Nat.compare_antisym (b2n a) (b2n b)).
  destruct (Nat.compare (b2n a) (b2n b)); cbn; auto.
Qed.

Lemma bstr_cmp_trans x y z :
  cmp_leb (bstr_cmp x y) = true -> cmp_leb (bstr_cmp y z) = true -> cmp_leb (bstr_cmp x z) = true.
Proof.
  revert y z; induction x as [|a x IH]; intros [|b y] [|c z]; cbn; auto; try discriminate.
  destruct (Nat.compare_spec (b2n a) (b2n b)), (Nat.compare_spec (b2n b) (b2n c)),
    (Nat.compare_spec (b2n a) (b2n c)); cbn; try lia; try discriminate; auto. apply IH.
Qed.

Lemma bstr_cmp_good : good_cmp bstr_cmp.
Proof. split; [exact bstr_cmp_eq|]. split; [exact bstr_cmp_opp|exact bstr_cmp_trans]. Qed.

Lemma token_cmp_good : good_cmp token_cmp.
Proof.
  split; [|split].
  - intros [x|x] [y|y]; cbn; split; try congruence.
    + intros H; apply bstr_cmp_eq in H as ->; reflexivity.
    + intros E; injection E as ->. apply bstr_cmp_eq; reflexivity.
    + intros H. apply Nat.compare_eq in H. apply b2n_inj in H as ->; reflexivity.
    + intros E; injection E as ->. apply Nat.compare_refl.
  - intros [x|x] [y|y]; cbn; auto; [apply bstr_cmp_opp|].
    rewrite (Nat.compare_antisym (b2n x) (b2n y)). reflexivity.
  - intros [x|x] [y|y] [z|z]; cbn; try congruence; auto; [apply bstr_cmp_trans|].
    rewrite !nat_cmp_leb, !Nat.leb_le. lia.
Qed.
