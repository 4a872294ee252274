(** * The contract of [slice::binary_search] and the model's use of it

    src/optimize_bytes.rs:250-263, 289-304 call
    [counts.binary_search(&(byte, 0)).unwrap_err()].  OptBytesModel.v does not
    model the search itself: [search_err] counts the smaller entries.  Here: every
    search that keeps the promise of the standard library gives the same answer;
    and bisection, as in the library, keeps that promise. *)
From Verif Require Import Base BaseLemmas TokenSetModel OptBytesModel.

(** The answer of a search: [Ok(i)] or [Err(i)]. *)
Inductive found := Ok (i : nat) | Err (i : nat).

(** The documentation: for a sorted slice, [Ok(i)] is the index of an equal
    element; [Err(i)] is the place where the element could be inserted keeping
    the order, and there is no equal element. *)
Definition keeps_promise (search : ctable -> byte * nat -> found) : Prop :=
  forall v k, entries_sorted v = true ->
  match search v k with
  | Ok i => exists x, nth_error v i = Some x /\ entry_cmp x k = Eq
  | Err i => i <= length v /\
      (forall j x, nth_error v j = Some x -> entry_cmp x k = if j <? i then Lt else Gt)
  end.

(** ... unwrap_err *)
Definition unwrap_err (f : found) : outcome nat := match f with Err i => Ret i | Ok _ => Panic end.

Lemma count_below (v : ctable) k i : i <= length v ->
  (forall j x, nth_error v j = Some x -> entry_cmp x k = if j <? i then Lt else Gt) ->
  length (filter (fun x => entry_ltb x k) v) = i.
Proof.
  revert i. induction v as [|a v IH]; intros i Hi H; [cbn in *; lia|].
  pose proof (H 0 a eq_refl) as H0. destruct i as [|i].
  - cbn [filter]. unfold entry_ltb at 1. rewrite H0. cbn. apply (IH 0); [lia|].
    intros j x Hj. apply (H (S j) x Hj).
  - cbn [filter]. unfold entry_ltb at 1. rewrite H0. cbn [Nat.ltb Nat.leb length].
    f_equal. apply IH; [cbn in Hi; lia|]. intros j x Hj. apply (H (S j) x Hj).
Qed.

(** On a sorted table the model's value, result or panic, is that of any search
    that keeps the promise. *)
Theorem C36_search_is_the_promise : forall search v k, keeps_promise search -> entries_sorted v = true ->
  search_err v k = unwrap_err (search v k).
Proof.
  intros search v k Hp Hs. specialize (Hp v k Hs). unfold search_err. rewrite Hs. cbn [assert_that bind].
  destruct (search v k) as [i|i]; cbn [unwrap_err].
  - destruct Hp as (x & Hx & E). assert (Ex : existsb (fun x => match entry_cmp x k with Eq => true | _ => false end) v = true).
    { apply existsb_exists. exists x. split; [eapply nth_error_In; exact Hx|]. rewrite E. reflexivity. }
    rewrite Ex. reflexivity.
  - destruct Hp as (Hi & H).
    assert (Ex : existsb (fun x => match entry_cmp x k with Eq => true | _ => false end) v = false).
    { apply not_true_iff_false. intros Ex. apply existsb_exists in Ex as (x & Hx & E).
      apply In_nth_error in Hx as (j & Hj). rewrite (H j x Hj) in E. destruct (j <? i); discriminate. }
    rewrite Ex. cbn. f_equal. apply count_below; assumption.
Qed.

(** ** Bisection *)
(** the loop of [binary_search_by]: [lo] and [size] of the part that is left *)
Fixpoint bisect (fuel : nat) (v : ctable) (k : byte * nat) (lo size : nat) : found :=
  match fuel with
  | O => Err lo
  | S f =>
      if size =? 0 then Err lo else
      let half := size / 2 in
      let mid := lo + half in
      match nth_error v mid with
      | None => Err lo
      | Some x =>
          match entry_cmp x k with
          | Eq => Ok mid
          | Lt => bisect f v k (S mid) (size - half - 1)
          | Gt => bisect f v k lo half
          end
      end
  end.
Definition bisection (v : ctable) (k : byte * nat) : found := bisect (S (length v)) v k 0 (length v).

Lemma entry_trans a b c : entry_cmp a b <> Gt -> entry_cmp b c = Lt -> entry_cmp a c = Lt.
Proof.
  unfold entry_cmp. intros H1 H2.
  destruct (Nat.compare_spec (b2n (fst a)) (b2n (fst b))), (Nat.compare_spec (b2n (fst b)) (b2n (fst c))), (Nat.compare_spec (b2n (fst a)) (b2n (fst c)));
    try congruence; try lia;
    repeat match goal with H : context [Nat.compare ?x ?y] |- _ => destruct (Nat.compare_spec x y) end; try congruence; try apply Nat.compare_lt_iff; lia.
Qed.
Lemma entry_trans' a b c : entry_cmp a b <> Gt -> entry_cmp a c = Gt -> entry_cmp b c = Gt.
Proof.
  unfold entry_cmp. intros H1 H2.
  destruct (Nat.compare_spec (b2n (fst a)) (b2n (fst b))), (Nat.compare_spec (b2n (fst b)) (b2n (fst c))), (Nat.compare_spec (b2n (fst a)) (b2n (fst c)));
    try congruence; try lia;
    repeat match goal with H : context [Nat.compare ?x ?y] |- _ => destruct (Nat.compare_spec x y) end; try congruence; try apply Nat.compare_gt_iff; lia.
Qed.
Lemma entry_le_trans a b c : entry_cmp a b <> Gt -> entry_cmp b c <> Gt -> entry_cmp a c <> Gt.
Proof. intros H1 H2 E. apply H2. eapply entry_trans'; eauto. Qed.
Lemma entry_refl a : entry_cmp a a <> Gt.
Proof. unfold entry_cmp. rewrite !Nat.compare_refl. discriminate. Qed.

Lemma sorted_le : forall v i j x y, entries_sorted v = true -> i <= j -> nth_error v i = Some x -> nth_error v j = Some y -> entry_cmp x y <> Gt.
Proof.
  assert (G : forall v a, entries_sorted (a :: v) = true -> forall j y, nth_error v j = Some y -> entry_cmp a y <> Gt).
  { induction v as [|b v IH]; intros a H j y Hj; [destruct j; discriminate|].
    cbn [entries_sorted] in H. apply andb_true_iff in H as (H1 & H2).
    assert (Hab : entry_cmp a b <> Gt) by (destruct (entry_cmp a b); [discriminate|discriminate|discriminate H1]).
    destruct j as [|j]; cbn in Hj; [injection Hj as <-; exact Hab|].
    eapply entry_le_trans; [exact Hab|]. eapply IH; eassumption. }
  induction v as [|a v IH]; intros [|i] [|j] x y Hs Hij Hi Hj; cbn in Hi, Hj; try discriminate; try lia.
  - injection Hi as <-. injection Hj as <-. apply entry_refl.
  - injection Hi as <-. eapply G; eassumption.
  - apply (IH i j); try assumption; [|lia]. destruct v; [destruct i; discriminate|]. cbn in Hs. apply andb_true_iff in Hs. apply Hs.
Qed.

Lemma bisect_ok v k : entries_sorted v = true -> forall fuel lo size, size < fuel -> lo + size <= length v ->
  (forall j x, nth_error v j = Some x -> j < lo -> entry_cmp x k = Lt) ->
  (forall j x, nth_error v j = Some x -> lo + size <= j -> entry_cmp x k = Gt) ->
  match bisect fuel v k lo size with
  | Ok i => exists x, nth_error v i = Some x /\ entry_cmp x k = Eq
  | Err i => i <= length v /\ forall j x, nth_error v j = Some x -> entry_cmp x k = if j <? i then Lt else Gt
  end.
Proof.
  intros Hs. induction fuel as [|f IH]; intros lo size Hf Hl Hlo Hhi; [lia|]. cbn [bisect].
  destruct (Nat.eqb_spec size 0) as [->|Hz].
  - split; [lia|]. intros j x Hj. destruct (Nat.ltb_spec j lo); [eapply Hlo; eassumption|]. eapply Hhi; [eassumption|lia].
  - assert (Hh : size / 2 < size) by (apply Nat.div_lt; lia).
    destruct (nth_error v (lo + size / 2)) as [x|] eqn:Ex; [|apply nth_error_None in Ex; lia].
    destruct (entry_cmp x k) eqn:E.
    + exists x. auto.
    + apply IH; [lia|lia| |intros j y Hj H; eapply Hhi; [eassumption|lia]].
      intros j y Hj H. eapply entry_trans; [|exact E]. eapply sorted_le; [exact Hs| |exact Hj|exact Ex]. lia.
    + apply IH; [lia|lia|assumption|].
      intros j y Hj H. eapply entry_trans'; [|exact E]. eapply sorted_le; [exact Hs| |exact Ex|exact Hj]. lia.
Qed.

(** The promise can be kept. *)
Theorem bisection_keeps_promise : keeps_promise bisection.
Proof.
  intros v k Hs. apply bisect_ok; try assumption; try lia.
  intros j x Hj H. assert (j < length v) by (apply nth_error_Some; congruence). lia.
Qed.

(** In particular the model is what bisection computes. *)
Theorem C36_search_by_bisection : forall v k, entries_sorted v = true ->
  search_err v k = unwrap_err (bisection v k).
Proof. intros v k. apply C36_search_is_the_promise, bisection_keeps_promise. Qed.
