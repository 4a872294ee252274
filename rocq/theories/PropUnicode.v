(** * Property C111: what counts as text. *)
From Coq Require Import ZArith Lia.
From Verif Require Import Base BaseLemmas Utf8 SamplerModel ProcessingModel PropProcessing CountModel PropCount.

(** ** Specification: Unicode, definitions D76 and D92
    (scalar values; the UTF-8 form of one, table 3-6) *)
Definition scalar_value (v : N) : Prop := (v < 55296 \/ 57344 <= v < 1114112)%N.
Definition byte_value (n : N) : byte := n2b (N.to_nat n).
Definition utf8_form (v : N) : bstr :=
  map byte_value
    (if v <? 128 then [v]
     else if v <? 2048 then [192 + v / 64; 128 + v mod 64]
     else if v <? 65536 then [224 + v / 4096; 128 + v / 64 mod 64; 128 + v mod 64]
     else [240 + v / 262144; 128 + v / 4096 mod 64; 128 + v / 64 mod 64; 128 + v mod 64])%N.
(** the encoding of a sequence of characters *)
Definition encoded (vs : list N) (s : bstr) : Prop := Forall scalar_value vs /\ s = flat_map utf8_form vs.

Ltac Zify.zify_post_hook ::= Z.to_euclidean_division_equations.

Lemma byte_value_b2n n : (n < 256)%N -> b2n (byte_value n) = N.to_nat n.
Proof. intros H. unfold byte_value. apply b2n_n2b_small. lia. Qed.

Lemma utf8_form_char v : scalar_value v -> utf8_char (utf8_form v) /\ code_point (utf8_form v) = v.
Proof.
  intros H. unfold scalar_value in H. unfold utf8_form.
  destruct (N.ltb_spec v 128); [|destruct (N.ltb_spec v 2048); [|destruct (N.ltb_spec v 65536)]]; cbn [map code_point]; unfold cont_bits.
  - rewrite byte_value_b2n by lia. split; [|lia]. constructor. rewrite byte_value_b2n by lia. lia.
  - rewrite !byte_value_b2n by lia. split; [|lia]. constructor; rewrite byte_value_b2n by lia; lia.
  - rewrite !byte_value_b2n by lia. split; [|lia]. constructor; rewrite ?byte_value_b2n by lia; lia.
  - rewrite !byte_value_b2n by lia. split; [|lia]. constructor; rewrite ?byte_value_b2n by lia; lia.
Qed.

Lemma code_point_scalar c : utf8_char c -> scalar_value (code_point c).
Proof.
  intros H. unfold scalar_value. destruct H as [a A|a b A B|a b d A B D X Y|a b d e A B D E X Y]; cbn [code_point]; unfold cont_bits; lia.
Qed.
Lemma utf8_form_code c : utf8_char c -> utf8_form (code_point c) = c.
Proof.
  intros H. destruct (utf8_form_char (code_point c) (code_point_scalar c H)) as (A & B). apply code_point_inj; assumption.
Qed.

Lemma encoded_chars vs : Forall scalar_value vs -> utf8 (flat_map utf8_form vs) /\ map code_point (chars (flat_map utf8_form vs)) = vs.
Proof.
  induction 1 as [|v vs Hv _ (IH1 & IH2)]; [split; [constructor|reflexivity]|]. cbn [flat_map].
  destruct (utf8_form_char v Hv) as (A & B). split; [constructor; assumption|]. rewrite chars_cons by exact A. cbn [map]. rewrite B, IH2. reflexivity.
Qed.

(** Valid text is exactly the encodings of sequences of characters; the characters are
    determined by the bytes, and the program reads them. *)
Theorem C111_text : forall s,
  (utf8_valid s = true <-> exists vs, encoded vs s) /\
  (forall vs, encoded vs s -> map code_point (chars s) = vs).
Proof.
  intros s. split; [split|].
  - intros H. apply utf8_valid_spec in H. exists (map code_point (chars s)). destruct (chars_spec s H) as (F & C). split.
    + rewrite Forall_map. eapply Forall_impl; [|exact F]. exact code_point_scalar.
    + rewrite <- C at 1. clear C. induction F as [|c l Hc _ IH]; [reflexivity|]. cbn. rewrite utf8_form_code by exact Hc. rewrite <- IH. reflexivity.
  - intros (vs & F & ->). apply utf8_valid_spec. apply encoded_chars, F.
  - intros vs (F & ->). apply encoded_chars, F.
Qed.

(** Two sequences of characters never have the same bytes. *)
Theorem C111_unambiguous : forall vs ws s, encoded vs s -> encoded ws s -> vs = ws.
Proof. intros vs ws s H1 H2. rewrite <- (proj2 (C111_text s) vs H1). apply (proj2 (C111_text s) ws H2). Qed.

(** process accepts exactly the encodings (on a disk that never refuses) and
    reports everything else, whatever the disk does. *)
Theorem C111_process_accepts_text : forall U cap file, table_ok U ->
  ((exists vs, encoded vs file) -> forall script, never_refuses script -> exists out, process_file U cap script file = Ret (true, out)) /\
  (forall script out, process_file U cap script file = Ret (true, out) -> exists vs, encoded vs file).
Proof.
  intros U cap file HU. split.
  - intros H script R. apply C111_text, utf8_valid_spec in H. destruct (C33_file_processing U cap script file HU R H) as (out & _ & E). eauto.
  - intros script out H. apply C111_text. destruct (utf8_valid file) eqn:E; [reflexivity|exfalso].
    destruct (C33_invalid_text_is_reported U cap script file HU) as (sink & E'); [|rewrite H in E'; discriminate].
    intros K. apply utf8_valid_spec in K. congruence.
Qed.

(** count-chars accepts exactly the encodings, and what it prints in terms of the
    characters. *)
Definition times (v : N) (vs : list N) : nat := count_occ N.eq_dec vs v.
Lemma count_loop_utf8 : forall fuel rest total s r, count_loop fuel rest total s = Ret r -> utf8 rest.
Proof.
  induction fuel as [|f IH]; intros rest total s r H; [discriminate|]. cbn [count_loop] in H.
  destruct rest as [|r0 rest0] eqn:Er; [constructor|].
  rewrite <- Er in *. assert (Hne : rest <> []) by (rewrite Er; discriminate). clear Er r0 rest0.
  destruct (read_line_cases rest Hne) as (l & r' & E & Erest & Hl & Hcase). rewrite E in H.
  destruct l as [|l0 l'] eqn:El; [congruence|]. rewrite <- El in *. clear l' El l0.
  destruct (utf8_valid l) eqn:V; [|discriminate]. cbn [assert_that bind] in H. apply utf8_valid_spec in V.
  destruct (mfold count_char (chars l) s) as [s'| |]; try discriminate. cbn [bind] in H. apply IH in H.
  rewrite Erest. apply utf8_app; assumption.
Qed.

Lemma occurrences_times v t : occurrences v t = times v (map code_point t).
Proof.
  unfold occurrences, times. induction t as [|c t IH]; [reflexivity|]. cbn [map count_occ filter].
  destruct (N.eq_dec (code_point c) v) as [->|N]; [rewrite N.eqb_refl; cbn; rewrite IH; reflexivity|].
  apply N.eqb_neq in N. rewrite N. exact IH.
Qed.

Theorem C111_count_chars_accepts_text : forall file,
  (forall vs, encoded vs file -> exists low top, count_chars file = Ret (length vs, low, top) /\
     (forall v n, In (v, n) low <-> v < 256 /\ n = times (N.of_nat v) vs /\ 0 < n) /\
     (forall v, In v vs -> 256 <= v -> v <= top)%N /\ (top = 0%N \/ In top vs)) /\
  ((exists r, count_chars file = Ret r) -> exists vs, encoded vs file).
Proof.
  intros file. split.
  - intros vs H. pose proof (proj2 (C111_text file) vs H) as Hv.
    assert (Hu : utf8 file) by (apply utf8_valid_spec, C111_text; eauto).
    destruct (C48_character_counts file Hu) as (total & low & top & E & -> & L & _ & T1 & T2). exists low, top. subst vs.
    rewrite map_length. split; [exact E|]. split; [|split].
    + intros v n. rewrite <- occurrences_times. apply L.
    + intros v Hi Hv. apply in_map_iff in Hi as (c & <- & Hc). apply T1; assumption.
    + destruct T2 as [->|(c & Hc & <-)]; [auto|right; apply in_map; exact Hc].
  - intros (r & H). apply C111_text, utf8_valid_spec. unfold count_chars in H.
    destruct (count_loop _ _ _ _) as [x| |] eqn:E; try discriminate. eapply count_loop_utf8; exact E.
Qed.

(** A, e with acute accent, euro sign, a clef *)
Example C111_example : encoded [65; 233; 8364; 119070]%N [x41; xc3; xa9; xe2; x82; xac; xf0; x9d; x84; x9e] /\
  ~ scalar_value 55296 /\ utf8_valid [xed; xa0; x80] = false.
Proof. split; [split; [repeat constructor; unfold scalar_value; lia|reflexivity]|]. split; [unfold scalar_value; lia|reflexivity]. Qed.
