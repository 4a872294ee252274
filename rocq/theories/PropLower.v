(** * C49: the lower-case forms, character by character. *)
From Verif Require Import Base BaseLemmas Utf8 SamplerModel ProcessingModel.

(** In the text [w], a capital sigma at position [i] ends a word: the nearest character before it that is
    not ignorable has a case, and not so the nearest one after it. *)
Definition cased_before (U : unicode) (w : text) (i : nat) : Prop :=
  exists j c, j < i /\ nth_error w j = Some c /\ case_ignorable U c = false /\ cased U c = true /\
    forall k d, j < k -> k < i -> nth_error w k = Some d -> case_ignorable U d = true.
Definition cased_after (U : unicode) (w : text) (i : nat) : Prop :=
  exists j c, i < j /\ nth_error w j = Some c /\ case_ignorable U c = false /\ cased U c = true /\
    forall k d, i < k -> k < j -> nth_error w k = Some d -> case_ignorable U d = true.
Definition ends_word (U : unicode) (w : text) (i : nat) : Prop := cased_before U w i /\ ~ cased_after U w i.

Lemma ignorable_iff U l : ignorable_then_cased U l = true <->
  exists j c, nth_error l j = Some c /\ case_ignorable U c = false /\ cased U c = true /\
    forall k d, k < j -> nth_error l k = Some d -> case_ignorable U d = true.
Proof.
  induction l as [|c r IH]; cbn [ignorable_then_cased].
  - split; [discriminate|]. intros (j & c & H & _). destruct j; discriminate H.
  - destruct (case_ignorable U c) eqn:E.
    + rewrite IH. split.
      * intros (j & x & H1 & H2 & H3 & H4). exists (S j), x. repeat (split; [assumption|]). intros [|k] d Hk Hd; [injection Hd as <-; exact E|].
        apply (H4 k d); [lia|exact Hd].
      * intros ([|j] & x & H1 & H2 & H3 & H4).
        -- injection H1 as ->. congruence.
        -- exists j, x. repeat (split; [assumption|]). intros k d Hk Hd. apply (H4 (S k) d); [lia|exact Hd].
    + split.
      * intros H. exists 0, c. repeat (split; [auto|]). intros k d Hk. lia.
      * intros ([|j] & x & H1 & H2 & H3 & H4); [injection H1 as ->; exact H3|]. specialize (H4 0 c ltac:(lia) eq_refl). congruence.
Qed.

Lemma before_iff U a c r : ignorable_then_cased U (rev a) = true <-> cased_before U (a ++ c :: r) (length a).
Proof.
  rewrite ignorable_iff. unfold cased_before.
  assert (R : forall k, k < length a -> nth_error (rev a) k = nth_error (a ++ c :: r) (length a - S k)).
  { intros k Hk. rewrite nth_error_app1 by lia. rewrite <- (rev_involutive a) at 2. destruct (nth_error (rev a) k) as [x|] eqn:E.
    - symmetry. apply nth_error_nth with (d := x) in E. rewrite <- E. rewrite (nth_error_nth' _ x) by (rewrite rev_length, rev_length; lia). f_equal.
      rewrite rev_nth by (rewrite rev_length; lia). f_equal. rewrite rev_length. lia.
    - apply nth_error_None in E. rewrite rev_length in E. lia. }
  split.
  - intros (j & x & H1 & H2 & H3 & H4). assert (Hj : j < length a) by (rewrite <- rev_length; apply nth_error_Some; congruence).
    exists (length a - S j), x. rewrite <- (R j Hj). split; [lia|]. repeat (split; [assumption|]). intros k d K1 K2 Hd. apply (H4 (length a - S k) d); [lia|].
    rewrite R by lia. replace (length a - S (length a - S k)) with k by lia. exact Hd.
  - intros (j & x & Hj & H1 & H2 & H3 & H4). exists (length a - S j), x. split; [rewrite R by lia; replace (length a - S (length a - S j)) with j by lia; exact H1|].
    repeat (split; [assumption|]). intros k d K Hd. rewrite R in Hd by lia. apply (H4 (length a - S k) d); [lia|lia|exact Hd].
Qed.

Lemma after_iff U a c r : ignorable_then_cased U r = true <-> cased_after U (a ++ c :: r) (length a).
Proof.
  rewrite ignorable_iff. unfold cased_after.
  assert (R : forall k, nth_error (a ++ c :: r) (length a + S k) = nth_error r k).
  { intros k. rewrite nth_error_app2 by lia. replace (length a + S k - length a) with (S k) by lia. reflexivity. }
  split.
  - intros (j & x & H1 & H2 & H3 & H4). exists (length a + S j), x. rewrite R. split; [lia|]. repeat (split; [assumption|]). intros k d K1 K2 Hd.
    apply (H4 (k - length a - 1) d); [lia|]. rewrite <- R. replace (length a + S (k - length a - 1)) with k by lia. exact Hd.
  - intros (j & x & Hj & H1 & H2 & H3 & H4). exists (j - length a - 1), x. rewrite <- R. replace (length a + S (j - length a - 1)) with j by lia.
    repeat (split; [assumption|]). intros k d K Hd. rewrite <- R in Hd. apply (H4 (length a + S k) d); [lia|lia|exact Hd].
Qed.

Lemma lower_pieces U r : forall a, exists pieces, lower_from U (rev a) r = concat pieces /\ length pieces = length r /\
  forall i c p, nth_error r i = Some c -> nth_error pieces i = Some p ->
    (c <> cap_sigma -> p = lower_char U c) /\
    (c = cap_sigma -> ends_word U (a ++ r) (length a + i) -> p = [final_sigma]) /\
    (c = cap_sigma -> ~ ends_word U (a ++ r) (length a + i) -> p = [small_sigma]).
Proof.
  induction r as [|c r IH]; intros a.
  - exists []. split; [reflexivity|]. split; [reflexivity|]. intros [|i] x p H; discriminate H.
  - destruct (IH (a ++ [c])) as (ps & E & L & H). rewrite rev_app_distr in E. cbn [rev app] in E.
    cbn [lower_from]. rewrite E. eexists (_ :: ps). split; [reflexivity|]. split; [cbn [length]; rewrite L; reflexivity|].
    intros [|i] x p Hx Hp.
    + injection Hx as <-. injection Hp as <-. rewrite Nat.add_0_r. destruct (bstr_eqb c cap_sigma) eqn:Eb.
      * apply bstr_eqb_eq in Eb. subst c. split; [congruence|]. pose proof (before_iff U a cap_sigma r) as B. pose proof (after_iff U a cap_sigma r) as A.
        split; intros _ W.
        -- destruct W as (W1 & W2). rewrite (proj2 B W1). destruct (ignorable_then_cased U r); [exfalso; apply W2, A; reflexivity|reflexivity].
        -- destruct (ignorable_then_cased U (rev a)); [|reflexivity]. destruct (ignorable_then_cased U r); [reflexivity|]. exfalso. apply W. split; [apply B; reflexivity|].
           intros C. apply A in C. discriminate.
      * assert (N : c <> cap_sigma) by (intros ->; rewrite (proj2 (bstr_eqb_eq _ _) eq_refl) in Eb; discriminate).
        split; [reflexivity|]. split; intros; contradiction.
    + cbn [nth_error] in Hx, Hp. specialize (H i x p Hx Hp). rewrite <- app_assoc in H. cbn [app] in H. rewrite app_length in H. cbn [length] in H.
      replace (length a + S i) with (length a + 1 + i) by lia. exact H.
Qed.

(** [lower_str], which [render] (C49) uses for words in capitals, is the lower-case form of every character in its place. *)
Theorem C49_lower_case : forall U w, exists pieces, lower_str U w = concat pieces /\ length pieces = length w /\
  forall i c p, nth_error w i = Some c -> nth_error pieces i = Some p ->
    (c <> cap_sigma -> p = lower_char U c) /\
    (c = cap_sigma -> ends_word U w i -> p = [final_sigma]) /\
    (c = cap_sigma -> ~ ends_word U w i -> p = [small_sigma]).
Proof. intros U w. exact (lower_pieces U w []). Qed.

(** Both forms occur: in a word with two capital sigmas, the second of which is its last letter. *)
Theorem C49_lower_case_met : forall U, case_ignorable U cap_sigma = false -> cased U cap_sigma = true ->
  ends_word U [cap_sigma; cap_sigma] 1 /\ ~ ends_word U [cap_sigma; cap_sigma] 0 /\ lower_str U [cap_sigma; cap_sigma] = [small_sigma; final_sigma].
Proof.
  intros U Hi Hc. split; [|split].
  - split.
    + exists 0, cap_sigma. split; [lia|]. split; [reflexivity|]. split; [exact Hi|]. split; [exact Hc|]. intros k d K1 K2. lia.
    + intros (j & c & Hj & H & _). destruct j as [|[|[|j]]]; try lia; discriminate H.
  - intros ((j & c & Hj & _) & _). lia.
  - unfold lower_str. assert (E : bstr_eqb cap_sigma cap_sigma = true) by (apply bstr_eqb_eq; reflexivity). cbn [lower_from]. rewrite E. cbn [ignorable_then_cased]. rewrite Hi, Hc. reflexivity.
Qed.
