(** * Property C48: character counting. *)
From Verif Require Import Base BaseLemmas Utf8 SamplerModel PropSampler ProcessingModel PropProcessing CountModel.

(** Different characters have different codes. *)
Lemma code_point_inj c1 c2 : utf8_char c1 -> utf8_char c2 -> code_point c1 = code_point c2 -> c1 = c2.
Proof.
  intros H1 H2 E.
  destruct H1 as [a1 A1|a1 b1 A1 B1|a1 b1 d1 A1 B1 D1 X1 Y1|a1 b1 d1 e1 A1 B1 D1 E1 X1 Y1];
  destruct H2 as [a2 A2|a2 b2 A2 B2|a2 b2 d2 A2 B2 D2 X2 Y2|a2 b2 d2 e2 A2 B2 D2 E2 X2 Y2];
  cbn [code_point] in E; unfold cont_bits in E; try (exfalso; lia).
  - assert (b2n a1 = b2n a2) by lia. f_equal; apply b2n_inj; lia.
  - f_equal; [apply b2n_inj; lia|f_equal; apply b2n_inj; lia].
  - f_equal; [apply b2n_inj; lia|f_equal; [apply b2n_inj; lia|f_equal; apply b2n_inj; lia]].
  - f_equal; [apply b2n_inj; lia|f_equal; [apply b2n_inj; lia|f_equal; [apply b2n_inj; lia|f_equal; apply b2n_inj; lia]]].
Qed.

(** Occurrences of a code in a text. *)
Definition occurrences (v : N) (t : text) : nat := length (filter (fun c => N.eqb (code_point c) v) t).

Lemma occurrences_app v a b : occurrences v (a ++ b) = occurrences v a + occurrences v b.
Proof. unfold occurrences. rewrite filter_app, app_length. reflexivity. Qed.

Lemma occurrences_one v c : occurrences v [c] = if N.eqb (code_point c) v then 1 else 0.
Proof. unfold occurrences. cbn. destruct (N.eqb _ _); reflexivity. Qed.

(** What the counters hold after a text [t]. *)
Definition counted (t : text) (s : list nat * list (N * nat)) : Prop :=
  length (fst s) = 256 /\
  (forall v, v < 256 -> nth_error (fst s) v = Some (occurrences (N.of_nat v) t)) /\
  (forall v, In v (map fst (snd s)) <-> (256 <= v)%N /\ exists c, In c t /\ code_point c = v).

Lemma nincr_keys m k v : In v (map fst (nincr m k)) <-> v = k \/ In v (map fst m).
Proof.
  induction m as [|(k', n) m IH]; cbn; [intuition congruence|].
  destruct (N.eqb_spec k k') as [->|]; cbn; [intuition congruence|]. rewrite IH. intuition.
Qed.

Lemma count_char_step t s c : counted t s -> exists s', count_char s c = Ret s' /\ counted (t ++ [c]) s'.
Proof.
  destruct s as (low, high). intros (L & Hlow & Hhigh). cbn [fst snd] in *. unfold count_char.
  destruct (N.ltb_spec (code_point c) 256) as [H|H].
  - unfold idx_upd. rewrite (proj2 (Nat.ltb_lt _ _)) by lia. cbn [bind]. eexists. split; [reflexivity|].
    unfold counted. cbn [fst snd]. split; [rewrite upd_length; exact L|]. split.
    + intros v Hv. rewrite nth_error_upd. rewrite occurrences_app, occurrences_one.
      rewrite Hlow by exact Hv. destruct (Nat.eqb_spec v (N.to_nat (code_point c))) as [->|Hne].
      * rewrite N2Nat.id, N.eqb_refl. cbn. f_equal. lia.
      * destruct (N.eqb_spec (code_point c) (N.of_nat v)) as [E|_]; [exfalso; lia|]. cbn. f_equal. lia.
    + intros v. rewrite Hhigh. split; intros (H1 & x & H2 & H3); (split; [exact H1|]); exists x.
      * split; [apply in_or_app; auto|exact H3].
      * apply in_app_iff in H2 as [H2|[<-|[]]]; [auto|lia].
  - eexists. split; [reflexivity|]. unfold counted. cbn [fst snd]. split; [exact L|]. split.
    + intros v Hv. rewrite Hlow by exact Hv. rewrite occurrences_app, occurrences_one.
      destruct (N.eqb_spec (code_point c) (N.of_nat v)) as [E|_]; [exfalso; lia|]. cbn. f_equal. lia.
    + intros v. rewrite nincr_keys, Hhigh. split.
      * intros [->|(H1 & x & H2 & H3)].
        -- split; [exact H|]. exists c. split; [apply in_or_app; right; left; reflexivity|reflexivity].
        -- split; [exact H1|]. exists x. split; [apply in_or_app; auto|exact H3].
      * intros (H1 & x & H2 & H3). apply in_app_iff in H2 as [H2|[<-|[]]]; [right; eauto|left; auto].
Qed.

Lemma count_chars_run t : forall done s, counted done s ->
  exists s', mfold count_char t s = Ret s' /\ counted (done ++ t) s'.
Proof.
  induction t as [|c t IH]; intros done s H; [exists s; rewrite app_nil_r; auto|].
  destruct (count_char_step done s c H) as (s1 & E1 & H1). cbn [mfold]. rewrite E1. cbn [bind].
  destruct (IH _ _ H1) as (s2 & E2 & H2). exists s2. rewrite <- app_assoc in H2. auto.
Qed.

Lemma count_loop_spec : forall fuel rest done s, length rest < fuel -> utf8 rest -> counted done s ->
  exists s', count_loop fuel rest (length done) s = Ret (length (done ++ chars rest), s') /\
    counted (done ++ chars rest) s'.
Proof.
  induction fuel as [|f IH]; intros rest done s Hf Hu H; [lia|]. cbn [count_loop].
  destruct rest as [|r0 rest0] eqn:Er.
  { cbn. exists s. rewrite app_nil_r. auto. }
  rewrite <- Er in *. assert (Hne : rest <> []) by (rewrite Er; discriminate). clear Er r0 rest0.
  destruct (read_line_cases rest Hne) as (l & r & E & Erest & Hl & Hcase). rewrite E.
  destruct l as [|l0 l'] eqn:El; [congruence|]. rewrite <- El in *. clear l' El l0.
  assert (Hlr : utf8 l /\ utf8 r).
  { destruct Hcase as [(u & -> & _)|(-> & _)].
    - rewrite Erest, <- app_assoc in Hu. cbn in Hu. apply utf8_cut_after in Hu; [exact Hu|cbn; lia].
    - rewrite app_nil_r in Erest. subst. split; [exact Hu|constructor]. }
  destruct Hlr as (Ul & Ur). rewrite (proj2 (utf8_valid_spec l) Ul). cbn [assert_that bind].
  destruct (count_chars_run (chars l) done s H) as (s1 & E1 & H1). rewrite E1. cbn [bind].
  destruct (IH r (done ++ chars l) s1) as (s2 & E2 & H2).
  - rewrite Erest, app_length in Hf. destruct l; [congruence|cbn in Hf; lia].
  - exact Ur.
  - exact H1.
  - exists s2. rewrite Erest, chars_app, app_assoc by exact Ul. rewrite <- E2. rewrite app_length. auto.
Qed.

Lemma max_key_spec m : forall acc,
  let r := fold_left (fun acc (kv : N * nat) => if (acc <? fst kv)%N then fst kv else acc) m acc in
  (acc <= r)%N /\ (forall k, In k (map fst m) -> (k <= r)%N) /\ (r = acc \/ In r (map fst m)).
Proof.
  induction m as [|(k, n) m IH]; intros acc; cbn [fold_left map fst In].
  - split; [lia|]. split; [intros k []|auto].
  - destruct (N.ltb_spec acc k) as [H|H]; cbv zeta in IH.
    + destruct (IH k) as (A & B & C). split; [lia|]. split; [intros x [<-|Hx]; [exact A|auto]|].
      destruct C as [C|C]; right; [left; symmetry; exact C|right; exact C].
    + destruct (IH acc) as (A & B & C). split; [exact A|]. split; [intros x [<-|Hx]; [lia|auto]|].
      destruct C; auto.
Qed.

(** C48: for a valid text, the total is the number of characters; the counts
    printed are those of the characters below 256 that occur, with their
    number of occurrences, in increasing order; the maximum is the largest
    character at or above 256, if there is one, and 0 otherwise. *)
Theorem C48_character_counts : forall file, utf8 file ->
  exists total low top, count_chars file = Ret (total, low, top) /\
    total = length (chars file) /\
    (forall v n, In (v, n) low <-> v < 256 /\ n = occurrences (N.of_nat v) (chars file) /\ 0 < n) /\
    Sorted lt (map fst low) /\
    (forall c, In c (chars file) -> (256 <= code_point c)%N -> (code_point c <= top)%N) /\
    (top = 0%N \/ exists c, In c (chars file) /\ code_point c = top).
Proof.
  intros file Hu. unfold count_chars.
  destruct (count_loop_spec (S (length file)) file [] (repeat 0 256, [])) as (s & E & (L & Hlow & Hhigh)); auto.
  { unfold counted. cbn [fst snd]. split; [reflexivity|]. split.
    - intros v Hv. unfold occurrences. cbn [filter length].
      rewrite <- (repeat_length 0 256) in Hv. apply nth_error_Some in Hv.
      destruct (nth_error (repeat 0 256) v) as [x|] eqn:Ex; [|congruence].
      apply nth_error_In, repeat_spec in Ex. subst. reflexivity.
    - intros v. cbn. split; [intros []|intros (_ & c & [] & _)]. }
  cbn [app length] in *. rewrite E. cbn [bind].
  eexists _, _, _. split; [reflexivity|]. split; [reflexivity|]. split; [|split; [|split]].
  - intros v n. rewrite filter_In, in_enum. cbn [snd]. rewrite Nat.ltb_lt. split.
    + intros (H1 & H2). assert (Hv : v < 256) by (rewrite <- L; apply nth_error_Some; congruence).
      rewrite Hlow in H1 by exact Hv. injection H1 as <-. auto.
    + intros (Hv & -> & H2). rewrite Hlow by exact Hv. auto.
  - clear. unfold enum. generalize 0 at 2 as k. induction (fst s) as [|x l IH]; intros k; cbn [enum_from filter snd]; [constructor|].
    assert (Hgt : forall j k, j <= k -> HdRel lt j (map fst (filter (fun p => 0 <? snd p) (enum_from (S k) l)))).
    { clear. induction l as [|y l IH]; intros j k Hk; cbn [enum_from filter snd]; [constructor|].
      destruct (0 <? y); [constructor; cbn; lia|]. apply IH. lia. }
    destruct (0 <? x); [|apply IH]. cbn [map fst]. constructor; [apply IH|]. apply Hgt. lia.
  - intros c Hc Hv. apply (proj1 (proj2 (max_key_spec (snd s) 0%N))). apply Hhigh. eauto.
  - destruct (proj2 (proj2 (max_key_spec (snd s) 0%N))) as [H|H]; [left; exact H|right].
    apply Hhigh in H as (_ & H). exact H.
Qed.

(** Invalid text panics. *)
Example C48_example : count_chars [x61; x0a; xc3; xa9; x61; xe2; x82; xac] =
  Ret (5, [(10, 1); (97, 2); (233, 1)], 8364%N).
Proof. reflexivity. Qed.
