(** * Property C33, continued: what is written when the text is invalid. *)
From Verif Require Import Base BaseLemmas Utf8 SamplerModel ProcessingModel PropProcessing.

(** The first line of a text, with its newline, if there is one. *)
Definition first_line (l rest : bstr) : Prop :=
  (exists u, l = u ++ [x0a] /\ ~ In x0a u) \/ (rest = [] /\ l <> [] /\ ~ In x0a l).
(** Complete lines. *)
Definition whole_lines (s : bstr) : Prop := s = [] \/ exists u, s = u ++ [x0a].

Lemma read_line_first u r : ~ In x0a u -> read_line (u ++ x0a :: r) = (u ++ [x0a], r).
Proof.
  induction u as [|b u IH]; intros H; cbn; [reflexivity|]. destruct (Byte.eqb b x0a) eqn:E.
  - exfalso. apply H. left. apply Byte.byte_dec_bl. exact E.
  - rewrite IH by (intros X; apply H; right; exact X). reflexivity.
Qed.
Lemma read_line_last l : ~ In x0a l -> read_line l = (l, []).
Proof.
  induction l as [|b l IH]; intros H; cbn; [reflexivity|]. destruct (Byte.eqb b x0a) eqn:E.
  - exfalso. apply H. left. apply Byte.byte_dec_bl. exact E.
  - rewrite IH by (intros X; apply H; right; exact X). reflexivity.
Qed.
Lemma first_line_read l r : first_line l r -> l <> [] /\ read_line (l ++ r) = (l, r).
Proof.
  intros [(u & -> & H)|(-> & Hl & H)].
  - split; [destruct u; discriminate|]. rewrite <- app_assoc. cbn [app]. apply read_line_first, H.
  - split; [exact Hl|]. rewrite app_nil_r. apply read_line_last, H.
Qed.

Lemma process_lines_bad U cap l r : first_line l r -> ~ utf8 l ->
  forall fuel fuel' good w, length good < fuel -> length (good ++ l ++ r) < fuel' -> whole_lines good ->
  forall ok w', process_lines U fuel cap good w = Ret (ok, w') -> process_lines U fuel' cap (good ++ l ++ r) w = Ret (false, w').
Proof.
  intros Hfl Hbad. destruct (first_line_read l r Hfl) as (Hne & Hrd).
  assert (V : utf8_valid l = false) by (destruct (utf8_valid l) eqn:V; [apply utf8_valid_spec in V; contradiction|reflexivity]).
  induction fuel as [|f IH]; intros fuel' good w Hf Hf' Hw ok w' H; [lia|]. destruct fuel' as [|f']; [lia|].
  destruct good as [|g0 good0] eqn:Eg.
  - cbn in H. injection H as <- <-. cbn [app process_lines]. rewrite Hrd. destruct l; [congruence|]. rewrite V. reflexivity.
  - rewrite <- Eg in *. assert (Hg : good <> []) by (rewrite Eg; discriminate). clear Eg g0 good0.
    destruct (read_line_cases good Hg) as (l1 & r1 & E & Ed & Hl1 & Hc). cbn [process_lines] in *. rewrite E in H.
    assert (Hw1 : exists u, l1 = u ++ [x0a] /\ ~ In x0a u).
    { destruct Hc as [Hc|(-> & Hn)]; [exact Hc|exfalso]. rewrite app_nil_r in Ed. subst l1.
      destruct Hw as [->|(u & ->)]; [congruence|]. apply Hn, in_app_iff. right. left. reflexivity. }
    destruct Hw1 as (u & El1 & Hu).
    assert (E2 : read_line (good ++ l ++ r) = (l1, r1 ++ l ++ r)).
    { rewrite Ed, El1, <- !app_assoc. cbn [app]. rewrite read_line_first by exact Hu. reflexivity. }
    rewrite E2. destruct l1 as [|x l1']; [congruence|]. remember (x :: l1') as l1 eqn:Ex. clear Ex l1'.
    destruct (negb (utf8_valid l1)); [injection H as <- <-; reflexivity|].
    destruct (process_str U (strip_line l1)) as [p| |]; try discriminate. cbn [bind] in *.
    destruct (bw_write cap w p) as (ok1, w1). destruct (negb ok1); [injection H as <- <-; reflexivity|].
    destruct (bw_write cap w1 [x0a]) as (ok2, w2). destruct (negb ok2); [injection H as <- <-; reflexivity|].
    assert (L1 : 1 <= length l1) by (destruct l1; [congruence|cbn; lia]).
    assert (Lg : length good = length l1 + length r1) by (rewrite Ed at 1; apply app_length).
    apply (IH f' r1 w2) with (ok := ok); [lia|rewrite app_length in *; lia| |exact H].
    destruct Hw as [->|(v & Ev)]; [congruence|]. destruct r1 as [|c r1']; [left; reflexivity|right].
    destruct (exists_last (l := c :: r1')) as (v' & b & Eb); [discriminate|]. rewrite Eb in *. exists v'.
    rewrite Ed, app_assoc in Ev. apply app_inj_tail in Ev as (_ & ->). reflexivity.
Qed.

Lemma invalid_line file : ~ utf8 file -> exists good l r, file = good ++ l ++ r /\ whole_lines good /\ utf8 good /\ first_line l r /\ ~ utf8 l.
Proof.
  remember (length file) as n eqn:En. revert file En. induction n as [n IH] using lt_wf_ind. intros file -> H.
  destruct file as [|b0 file0] eqn:Ef; [exfalso; apply H; constructor|]. rewrite <- Ef in *.
  assert (Hne : file <> []) by (rewrite Ef; discriminate). clear Ef b0 file0.
  destruct (read_line_cases file Hne) as (l & r & _ & Ed & Hl & Hc).
  assert (Hfl : first_line l r) by (destruct Hc as [Hc|(Hr & Hn)]; [left; exact Hc|right; auto]).
  destruct (utf8_valid l) eqn:V.
  - apply utf8_valid_spec in V. assert (Hr : ~ utf8 r) by (intros X; apply H; rewrite Ed; apply utf8_app; assumption).
    destruct Hc as [(u & El & Hu)|(-> & _)]; [|exfalso; apply Hr; constructor].
    destruct (IH (length r)) with (file := r) as (good & l1 & r1 & Er & Hw & Hg & Hf1 & Hb); auto.
    { rewrite Ed, app_length. destruct l; [congruence|cbn; lia]. }
    exists (l ++ good), l1, r1. split; [rewrite <- app_assoc, <- Er; exact Ed|]. split; [|split; [apply utf8_app; assumption|auto]].
    destruct Hw as [->|(v & ->)]; right; [exists u; rewrite app_nil_r; exact El|exists (l ++ v); apply app_assoc].
  - exists [], l, r. split; [exact Ed|]. split; [left; reflexivity|]. split; [constructor|]. split; [exact Hfl|].
    intros X. apply utf8_valid_spec in X. congruence.
Qed.

(** Every file that is not valid text has a first line that is not.  Such a file is
    processed as the lines before that line are, whatever the disk does, and the error is reported; so on a disk that
    never refuses, exactly the processed lines before it are in the output. *)
Theorem C33_written_before_the_error : forall U cap file, table_ok U -> ~ utf8 file ->
  exists good l r, file = good ++ l ++ r /\ whole_lines good /\ utf8 good /\ first_line l r /\ ~ utf8 l /\
    (forall script, exists ok sink, process_file U cap script good = Ret (ok, sink) /\ process_file U cap script file = Ret (false, sink)) /\
    (forall script, never_refuses script -> exists out, process_str U (lines_text good) = Ret out /\ process_file U cap script file = Ret (false, out)).
Proof.
  intros U cap file HU H. destruct (invalid_line file H) as (good & l & r & E & Hw & Hg & Hfl & Hb).
  exists good, l, r. do 5 (split; [assumption|]).
  assert (A : forall script, exists ok sink, process_file U cap script good = Ret (ok, sink) /\ process_file U cap script file = Ret (false, sink)).
  { intros script. unfold process_file at 1 2.
    destruct (process_lines_spec U HU cap (S (length good)) good {| bw_buf := []; bw_sink := []; bw_script := script |}) as (ok & w & E1 & _); [lia|cbn; lia|].
    rewrite E1. cbn [bind]. exists ok, (bw_drop w). split; [reflexivity|].
    assert (E2 : process_lines U (S (length file)) cap file {| bw_buf := []; bw_sink := []; bw_script := script |} = Ret (false, w)).
    { rewrite E at 2. apply (process_lines_bad U cap l r Hfl Hb (S (length good))) with (ok := ok); [lia|rewrite <- E; lia|exact Hw|exact E1]. }
    rewrite E2. reflexivity. }
  split; [exact A|]. intros script R. destruct (A script) as (ok & sink & E1 & E2).
  destruct (C33_file_processing U cap script good HU R Hg) as (out & E3 & E4). rewrite E1 in E4. injection E4 as _ ->.
  exists out. auto.
Qed.

(** "Hi", a line with a stray byte, "no": only the first line is written. *)
Example C33_written_before_the_error_example :
  ~ utf8 [x48; x69; x0a; x61; xff; x0a; x6e; x6f] /\
  process_file ascii_table 4 [] [x48; x69; x0a; x61; xff; x0a; x6e; x6f] = Ret (false, [x14; x68; x69; x16; x0a]).
Proof. split; [|reflexivity]. intros H. apply utf8_valid_spec in H. discriminate. Qed.
