(** * Property C101: errors while reading are never mistaken for the end of the data. *)
From Verif Require Import Base BaseLemmas Utf8 SamplerModel ProcessingModel CountModel IoModel PropSampler PropPreload PropRandom
  TokenSetModel JsonModel JsonText CommandsModel.
Local Notation length := List.length.

(** The number of successful answers in a script. *)
Fixpoint gots (l : list answer) : nat :=
  match l with [] => 0 | Got _ :: r => S (gots r) | _ :: r => gots r end.

Lemma gots_app a b : gots (a ++ b) = gots a + gots b.
Proof. induction a as [|[k| |] a IH]; cbn; lia. Qed.

(** What is left to read. *)
Definition rest_of (file : bstr) (r : br) : bstr := br_buf r ++ skipn (br_pos r) file.
Definition unread (file : bstr) (r : br) : nat := length file - br_pos r.

Lemma cut_newline_some d l r : cut_newline d = Some (l, r) -> l <> [] /\ d = l ++ r /\ forall m, read_line (d ++ m) = (l, r ++ m).
Proof.
  revert l r. induction d as [|b d IH]; intros l r H; cbn in H; [discriminate|].
  destruct (Byte.eqb b x0a) eqn:Eb.
  - injection H as <- <-. split; [discriminate|]. split; [reflexivity|]. intros m. cbn. rewrite Eb. reflexivity.
  - destruct (cut_newline d) as [[l' r']|]; [|discriminate]. injection H as <- <-.
    destruct (IH l' r' eq_refl) as (_ & -> & Hr). split; [discriminate|]. split; [reflexivity|].
    intros m. cbn. rewrite Eb, Hr. reflexivity.
Qed.

Lemma cut_newline_none d : cut_newline d = None -> forall m, read_line (d ++ m) = (d ++ fst (read_line m), snd (read_line m)).
Proof.
  induction d as [|b d IH]; intros H m; cbn in *; [destruct (read_line m); reflexivity|].
  destruct (Byte.eqb b x0a); [discriminate|]. destruct (cut_newline d) as [[]|]; [discriminate|].
  rewrite (IH eq_refl m). reflexivity.
Qed.

Lemma skipn_past {A} n (l : list A) : length l <= n -> skipn n l = [].
Proof. apply skipn_all2. Qed.

Lemma read_part (file : bstr) pos n k : 0 < n -> let d := firstn (Nat.min n (S k)) (skipn pos file) in
  skipn pos file = d ++ skipn (pos + length d) file /\
  (d = [] -> skipn pos file = []) /\ (d <> [] -> pos < length file /\ pos + length d <= length file).
Proof.
  intros Hn d. assert (Ld : length d = Nat.min (Nat.min n (S k)) (length file - pos)) by (unfold d; rewrite firstn_length, skipn_length; reflexivity).
  split; [|split].
  - unfold d at 1. rewrite (Nat.add_comm pos), <- skipn_skipn.
    destruct (Nat.le_gt_cases (Nat.min n (S k)) (length file - pos)) as [H|H].
    + rewrite Nat.min_l in Ld by exact H. rewrite Ld. symmetry. apply firstn_skipn.
    + rewrite Nat.min_r in Ld by lia. rewrite Ld, firstn_all2 by (rewrite skipn_length; lia).
      rewrite (skipn_all2 (skipn pos file)) by (rewrite skipn_length; lia). rewrite app_nil_r; reflexivity.
  - intros E. rewrite E in Ld. cbn in Ld. apply skipn_all2. lia.
  - intros E. assert (length d <> 0) by (destruct d; cbn; congruence). lia.
Qed.

Lemma read_until_spec cap file : 0 < cap -> forall fuel r acc,
  length (br_script r) + (match br_buf r with [] => 0 | _ => 1 end) < fuel ->
  (br_buf r <> [] -> br_pos r <= length file) ->
  match read_until fuel cap file r acc with
  | Ret (Some l', r') => exists l used eof, l' = acc ++ l /\ read_line (rest_of file r) = (l, rest_of file r') /\
      br_script r = used ++ br_script r' /\ gots used + unread file r' <= unread file r + eof /\
      eof <= 1 /\ (eof = 1 -> rest_of file r' = []) /\ (br_buf r' <> [] -> br_pos r' <= length file)
  | Ret (None, _) => In Failed (br_script r)
  | Panic => False
  | OutOfFuel => gots (br_script r) <= unread file r
  end.
Proof.
  intros Hcap. induction fuel as [|fuel IH]; intros r acc Hf Hp; [lia|]. cbn [read_until].
  destruct (br_buf r) as [|c buf] eqn:Eb.
  - (* a call of read *)
    unfold fill_buf. rewrite Eb. unfold os_read.
    destruct (br_script r) as [|[k| |] s] eqn:Es; cbn [bind].
    + cbn. lia.
    + pose proof (read_part file (br_pos r) cap k Hcap) as Hr. cbv zeta in Hr.
      set (d := firstn (Nat.min cap (S k)) (skipn (br_pos r) file)) in *. destruct Hr as (Hr1 & Hr2 & Hr3).
      assert (Hrest : rest_of file r = d ++ skipn (br_pos r + length d) file) by (unfold rest_of; rewrite Eb; exact Hr1).
      destruct (cut_newline d) as [[l rest]|] eqn:Ec.
      * pose proof (cut_newline_some _ _ _ Ec) as (Hl & Ed & Hrl).
        assert (Hd : d <> []) by (rewrite Ed; destruct l; [congruence|discriminate]).
        destruct (Hr3 Hd) as (H1 & H2).
        assert (length d <> 0) by (destruct d; cbn; congruence).
        exists l, [Got k], 0. cbn [br_buf br_pos br_script]. split; [reflexivity|]. split; [rewrite Hrest; apply Hrl|].
        split; [reflexivity|]. split; [unfold unread; cbn; lia|]. split; [lia|]. split; [discriminate|]. intros _. cbn. lia.
      * destruct d as [|b0 d0] eqn:Ed.
        -- exists [], [Got k], 1. rewrite app_nil_r. split; [reflexivity|]. cbn [length] in *.
           assert (E0 : rest_of file r = []) by (unfold rest_of; rewrite Eb; cbn; apply Hr2; reflexivity).
           assert (E1 : skipn (br_pos r) file = []) by (apply Hr2; reflexivity).
           split; [|split; [reflexivity|split; [unfold unread; cbn; lia|split; [lia|split]]]].
           ++ rewrite E0. cbn. unfold rest_of. cbn. rewrite Nat.add_0_r, E1. reflexivity.
           ++ intros _. unfold rest_of. cbn. rewrite Nat.add_0_r. exact E1.
           ++ cbn. congruence.
        -- rewrite <- Ed in *. assert (Hd : d <> []) by (rewrite Ed; discriminate). destruct (Hr3 Hd) as (H1 & H2).
           assert (length d <> 0) by (destruct d; cbn; congruence).
           set (r2 := {| br_buf := []; br_pos := br_pos r + length d; br_script := s |}).
           cbn [br_script br_pos].
           specialize (IH r2 (acc ++ d)). cbn [br_buf br_script r2] in IH. cbn in Hf. specialize (IH ltac:(lia) ltac:(cbn; congruence)).
           fold r2. destruct (read_until fuel cap file r2 (acc ++ d)) as [[[l'|] r']| |]; [| |exact IH|].
           ++ destruct IH as (l & used & eof & -> & Hl & Hs & Hg & He & Heof & Hb).
              exists (d ++ l), (Got k :: used), eof. split; [rewrite app_assoc; reflexivity|]. split.
              { rewrite Hrest. rewrite (cut_newline_none d Ec). unfold rest_of in Hl. cbn in Hl. rewrite Hl. reflexivity. }
              split; [cbn; f_equal; exact Hs|]. split; [unfold unread in *; cbn in *; lia|]. auto.
           ++ right; exact IH.
           ++ cbn. unfold unread in *. cbn in *. lia.
    + specialize (IH {| br_buf := []; br_pos := br_pos r; br_script := s |} acc). cbn in IH, Hf.
      specialize (IH ltac:(lia) ltac:(congruence)).
      destruct (read_until fuel cap file _ acc) as [[[l'|] r']| |]; [| |exact IH|].
      * destruct IH as (l & used & eof & -> & Hl & Hs & Hg & He & Heof & Hb).
        exists l, (Interrupted :: used), eof. split; [reflexivity|]. split; [unfold rest_of in *; rewrite Eb; exact Hl|].
        split; [cbn; f_equal; exact Hs|]. split; [cbn; unfold unread in *; cbn in *; lia|]. auto.
      * right; exact IH.
      * cbn. exact IH.
    + left; reflexivity.
  - (* the buffer *)
    unfold fill_buf. rewrite Eb. cbn [bind].
    destruct (cut_newline (c :: buf)) as [[l rest]|] eqn:Ec.
    + pose proof (cut_newline_some _ _ _ Ec) as (_ & Ed & Hrl).
      exists l, [], 0. cbn [br_buf br_pos br_script]. split; [reflexivity|]. split; [unfold rest_of; rewrite Eb; apply Hrl|].
      split; [reflexivity|]. split; [unfold unread; cbn; lia|]. split; [lia|]. split; [discriminate|]. intros _. cbn. apply Hp. congruence.
    + set (r2 := {| br_buf := []; br_pos := br_pos r; br_script := br_script r |}).
      specialize (IH r2 (acc ++ c :: buf)). cbn [br_buf br_script r2] in IH. specialize (IH ltac:(lia) ltac:(cbn; congruence)).
      destruct (read_until fuel cap file r2 (acc ++ c :: buf)) as [[[l'|] r']| |]; [| |exact IH|].
      * destruct IH as (l & used & eof & -> & Hl & Hs & Hg & He & Heof & Hb).
        exists ((c :: buf) ++ l), used, eof. split; [rewrite app_assoc; reflexivity|]. split.
        { unfold rest_of at 1. rewrite Eb. rewrite (cut_newline_none _ Ec). unfold rest_of in Hl. cbn in Hl. rewrite Hl. reflexivity. }
        split; [exact Hs|]. split; [exact Hg|]. auto.
      * exact IH.
      * exact IH.
Qed.

(** ** Loops over the lines of a file *)
Section Lines.
Context {S R : Type}.
Variable step : S -> bstr -> outcome (S + R).
Variables fin fail : S -> outcome R.

(** the loop over the lines of a text, without errors *)
Fixpoint lines_pure (fuel : nat) (rest : bstr) (s : S) : outcome R :=
  match fuel with
  | O => OutOfFuel
  | Datatypes.S f =>
      match read_line rest with
      | ([], _) => fin s
      | (line, rest') =>
          x <- step s line ;;
          match x with
          | inl s' => lines_pure f rest' s'
          | inr v => Ret v
          end
      end
  end.

Lemma read_line_nil t : fst (read_line t) = [] <-> t = [].
Proof.
  destruct t as [|b t]; cbn; [split; reflexivity|]. destruct (Byte.eqb b x0a); [split; discriminate|].
  destruct (read_line t). split; discriminate.
Qed.

Lemma read_line_app t : t = fst (read_line t) ++ snd (read_line t).
Proof.
  induction t as [|b t IH]; cbn; [reflexivity|]. destruct (Byte.eqb b x0a); [reflexivity|].
  destruct (read_line t). cbn in *. congruence.
Qed.

Definition need (file : bstr) (r : br) : nat := unread file r + match rest_of file r with [] => 1 | _ => 2 end.

Lemma lines_io_spec cap file : 0 < cap -> forall fuel r s,
  length (rest_of file r) < fuel -> (br_buf r <> [] -> br_pos r <= length file) ->
  lines_io step fin fail fuel cap file r s = lines_pure fuel (rest_of file r) s \/
  (exists s', lines_io step fin fail fuel cap file r s = fail s' /\ In Failed (br_script r)) \/
  (lines_io step fin fail fuel cap file r s = OutOfFuel /\ gots (br_script r) < need file r).
Proof.
  intros Hcap. induction fuel as [|fuel IH]; intros r s Hf Hp; [lia|].
  cbn [lines_io lines_pure]. unfold read_line_io.
  pose proof (read_until_spec cap file Hcap (Datatypes.S (Datatypes.S (length (br_script r)))) r []) as H.
  specialize (H ltac:(destruct (br_buf r); lia) Hp).
  destruct (read_until _ cap file r []) as [[[l|] r']| |]; cbn [bind].
  - destruct H as (l0 & used & eof & El & Hl & Hs & Hg & He & Heof & Hb). cbn in El. subst l0.
    rewrite Hl. destruct l as [|c l]; [left; reflexivity|].
    assert (Hne : rest_of file r <> []).
    { intros E. rewrite E in Hl. discriminate. }
    assert (Happ : rest_of file r = (c :: l) ++ rest_of file r') by (rewrite (read_line_app (rest_of file r)) at 1; rewrite Hl; reflexivity).
    destruct (step s (c :: l)) as [[s'|v]| |] eqn:Est; cbn [bind]; [|left; reflexivity|left; reflexivity|left; reflexivity].
    assert (Hlen : length (rest_of file r') < fuel) by (rewrite Happ, app_length in Hf; cbn in Hf; lia).
    destruct (IH r' s' Hlen Hb) as [E|[(s2 & E & Hin)|(E & Hgot)]].
    + left; exact E.
    + right; left. exists s2. split; [exact E|]. rewrite Hs. apply in_app_iff. right; exact Hin.
    + right; right. split; [exact E|]. rewrite Hs, gots_app. unfold need in *.
      destruct (rest_of file r) as [|x y]; [congruence|].
      destruct (rest_of file r') as [|x' y'] eqn:E'; [lia|]. assert (eof = 0) by (destruct eof as [|[|]]; [reflexivity|specialize (Heof eq_refl); congruence|lia]). lia.
  - right; left. exists s. auto.
  - destruct H.
  - right; right. split; [reflexivity|]. unfold need. destruct (rest_of file r); lia.
Qed.

Lemma lines_file cap file script s : 0 < cap ->
  let io := lines_io step fin fail (Datatypes.S (length file)) cap file (open_br script) s in
  io = lines_pure (Datatypes.S (length file)) file s \/
  (exists s', io = fail s' /\ In Failed script) \/
  (io = OutOfFuel /\ gots script < length file + 2).
Proof.
  intros Hcap io. destruct (lines_io_spec cap file Hcap (Datatypes.S (length file)) (open_br script) s) as [E|[E|(E & Hg)]].
  - cbn. lia.
  - cbn. congruence.
  - left. exact E.
  - right; left. exact E.
  - right; right. split; [exact E|]. unfold need, unread, rest_of in Hg. cbn in Hg. destruct file; cbn in *; lia.
Qed.
End Lines.

(** ** The loops of the program *)
Lemma subsample_pure below : forall fuel rest data paragraph nread,
  lines_pure (subsample_step below) (fun s => Ret s) fuel rest (data, paragraph, nread)
  = subsample_loop below fuel rest data paragraph nread.
Proof.
  induction fuel as [|f IH]; intros; [reflexivity|]. cbn [lines_pure subsample_loop].
  destruct (read_line rest) as [[|c l] rest']; [reflexivity|]. unfold subsample_step.
  destruct (negb (starts_newline (c :: l)) && ends_blank paragraph); cbn [bind]; apply IH.
Qed.

Lemma count_pure : forall fuel rest total s,
  lines_pure count_step (fun s => Ret s) fuel rest (total, s) = count_loop fuel rest total s.
Proof.
  induction fuel as [|f IH]; intros; [reflexivity|]. cbn [lines_pure count_loop].
  destruct (read_line rest) as [[|c l] rest']; [reflexivity|]. unfold count_step.
  destruct (assert_that (utf8_valid (c :: l))); cbn [bind]; try reflexivity.
  destruct (mfold count_char (chars (c :: l)) s); cbn [bind]; try reflexivity. apply IH.
Qed.

Lemma process_pure U cap : forall fuel rest w,
  lines_pure (process_file_step U cap) (fun w => Ret (true, w)) fuel rest w = process_lines U fuel cap rest w.
Proof.
  induction fuel as [|f IH]; intros; [reflexivity|]. cbn [lines_pure process_lines].
  destruct (read_line rest) as [[|c l] rest']; [reflexivity|]. unfold process_file_step.
  destruct (negb (utf8_valid (c :: l))); cbn [bind]; [reflexivity|].
  destruct (process_str U (strip_line (c :: l))); cbn [bind]; try reflexivity.
  destruct (bw_write cap w a) as [ok w1]. destruct (negb ok); cbn [bind]; [reflexivity|].
  destruct (bw_write cap w1 [x0a]) as [ok2 w2]. destruct (negb ok2); cbn [bind]; [reflexivity|]. apply IH.
Qed.

(** ** C101 *)

(** Subsampling a file: the result is that of the whole file; a panic means
    that a read failed; and the run ends once the file has answered. *)
Theorem C101_sample_from_file : forall below cap script file, 0 < cap ->
  (exists data, subsample_io below cap script file = Ret data /\ subsample below file = Ret data) \/
  (subsample_io below cap script file = Panic /\ In Failed script) \/
  (subsample_io below cap script file = OutOfFuel /\ gots script < length file + 2).
Proof.
  intros below cap script file Hcap. unfold subsample_io, subsample.
  destruct (C31_whole_paragraphs below file) as (ps & sel & _ & _ & Es).
  destruct (lines_file (subsample_step below) (fun s => Ret s) (fun _ => Panic) cap file script ([], [], 0) Hcap)
    as [E|[(s' & E & Hin)|(E & Hg)]]; rewrite E.
  - left. rewrite subsample_pure. unfold subsample in Es. rewrite Es. eauto.
  - right; left. auto.
  - right; right. auto.
Qed.

Theorem C101_count_chars : forall cap script file, 0 < cap ->
  count_chars_io cap script file = count_chars file \/
  (count_chars_io cap script file = Panic /\ In Failed script) \/
  (count_chars_io cap script file = OutOfFuel /\ gots script < length file + 2).
Proof.
  intros cap script file Hcap. unfold count_chars_io, count_chars.
  destruct (lines_file count_step (fun s => Ret s) (fun _ => Panic) cap file script (0, (repeat 0 256, [])) Hcap)
    as [E|[(s' & E & Hin)|(E & Hg)]]; rewrite E.
  - left. rewrite count_pure. reflexivity.
  - right; left. auto.
  - right; right. auto.
Qed.

(** [process]: it reports success only if the whole file was read, and then
    has done what it does without errors of reading. *)
Theorem C101_process_file : forall U cap rcap script rscript file, 0 < rcap ->
  process_file_io U cap rcap script rscript file = process_file U cap script file \/
  (exists out, process_file_io U cap rcap script rscript file = Ret (false, out) /\ In Failed rscript) \/
  (process_file_io U cap rcap script rscript file = OutOfFuel /\ gots rscript < length file + 2).
Proof.
  intros U cap rcap script rscript file Hcap. unfold process_file_io, process_file.
  destruct (lines_file (process_file_step U cap) (fun w => Ret (true, w)) (fun w => Ret (false, w)) rcap file rscript
             {| bw_buf := []; bw_sink := []; bw_script := script |} Hcap)
    as [E|[(s' & E & Hin)|(E & Hg)]]; rewrite E.
  - left. rewrite process_pure. reflexivity.
  - right; left. cbn [bind]. eauto.
  - right; right. auto.
Qed.

Lemma read_to_end_spec size : forall fuel i file pos script acc, length script < fuel -> pos <= length file ->
  match read_to_end fuel size i file pos script acc with
  | Ret (Some d) => d = acc ++ skipn pos file
  | Ret None => In Failed script
  | Panic => False
  | OutOfFuel => gots script < length file - pos + 1
  end.
Proof.
  induction fuel as [|f IH]; intros i file pos script acc Hf Hp; [lia|]. cbn [read_to_end]. unfold os_read.
  destruct script as [|[k| |] s]; cbn [bind].
  - cbn. lia.
  - pose proof (read_part file pos (S (size i)) k ltac:(lia)) as (H1 & H2 & H3).
    destruct (firstn _ _) as [|b d] eqn:Ed; [cbn; rewrite H2, app_nil_r by reflexivity; reflexivity|].
    destruct (H3 ltac:(discriminate)) as (H4 & H5). cbn in Hf.
    specialize (IH (S i) file (pos + length (b :: d)) s (acc ++ b :: d) ltac:(lia) H5).
    destruct (read_to_end f size (S i) file _ s _) as [[x|]| |].
    + rewrite IH, <- app_assoc. f_equal. symmetry. exact H1.
    + right; exact IH.
    + exact IH.
    + cbn in *. lia.
  - cbn in Hf. specialize (IH i file pos s acc ltac:(lia) Hp).
    destruct (read_to_end f size i file pos s acc) as [[x|]| |]; auto. right; exact IH.
  - left; reflexivity.
Qed.

(** Reading a whole file into memory. *)
Theorem C101_whole_file : forall size script file,
  read_file_io size script file = Ret file \/
  (read_file_io size script file = Panic /\ In Failed script) \/
  (read_file_io size script file = OutOfFuel /\ gots script < length file + 1).
Proof.
  intros size script file. unfold read_file_io.
  pose proof (read_to_end_spec size (S (length script)) 0 file 0 script [] ltac:(lia) ltac:(lia)) as H.
  destruct (read_to_end _ size 0 file 0 script []) as [[d|]| |]; cbn [bind unwrap].
  - left. rewrite H. reflexivity.
  - right; left. auto.
  - destruct H.
  - right; right. rewrite Nat.sub_0_r in H. auto.
Qed.

(** Loading a token set: the set in the file, or a panic. *)
Theorem C101_token_file : forall size script file,
  (text <- read_file_io size script file ;; read_token_set text) = read_token_set file \/
  ((text <- read_file_io size script file ;; read_token_set text) = Panic /\ In Failed script) \/
  ((text <- read_file_io size script file ;; read_token_set text) = OutOfFuel /\ gots script < length file + 1).
Proof.
  intros size script file. destruct (C101_whole_file size script file) as [E|[(E & H)|(E & H)]]; rewrite E; cbn [bind]; auto.
Qed.

(** ** The file sampler *)
Lemma file_next_forward file size pos got x p : file_next file size pos got = Ret (Some (x, p)) -> pos <= p.
Proof.
  unfold file_next. destruct (got =? 0); [discriminate|]. destruct (got <? size).
  - intros H. apply bind_ret in H as (s & _ & H). injection H as _ <-. lia.
  - intros H. apply bind_ret in H as (stop & _ & H). destruct (Nat.ltb_spec stop got);
      apply bind_ret in H as (s & _ & H); injection H as _ <-; lia.
Qed.

(** A sample is never empty, so the next one starts later. *)
Lemma file_next_later file size pos got x p : 0 < size -> read_ok file size pos got ->
  file_next file size pos got = Ret (Some (x, p)) -> pos < p /\ p <= length file.
Proof.
  intros Hs (H1 & H2). unfold file_next. destruct (Nat.eqb_spec got 0) as [|Hg]; [discriminate|].
  assert (Hgl : pos + got <= length file) by lia.
  destruct (got <? size).
  - intros H. apply bind_ret in H as (s & _ & H). injection H as _ <-. lia.
  - intros H. apply bind_ret in H as (stop & Ep & H).
    assert (Lb : length (firstn got (skipn pos file)) = got) by (rewrite firstn_length, skipn_length; lia).
    destruct (C29_paragraph_end (firstn got (skipn pos file)) got ltac:(lia)) as (q & Eq & Hq).
    rewrite Ep in Eq. injection Eq as <-.
    destruct (Nat.ltb_spec stop got); apply bind_ret in H as (s & _ & H); injection H as _ <-; [|lia].
    destruct Hq as [(_ & (Hb & _) & _)|(-> & _)]; lia.
Qed.

Lemma file_samples_ext file size : forall fuel reads reads' pos, (forall p, pos <= p -> reads p = reads' p) ->
  file_samples fuel reads file size pos = file_samples fuel reads' file size pos.
Proof.
  induction fuel as [|f IH]; intros reads reads' pos He; [reflexivity|]. cbn [file_samples]. rewrite <- He by lia.
  destruct (file_next file size pos (reads pos)) as [[[x p]|]| |] eqn:En; cbn [bind]; try reflexivity.
  rewrite (IH reads reads' p); [reflexivity|]. intros q Hq. apply He. apply file_next_forward in En. lia.
Qed.

Lemma os_read_ok file pos n k : read_ok file n pos (length (firstn (Nat.min n (S k)) (skipn pos file))).
Proof. unfold read_ok. rewrite firstn_length, skipn_length. lia. Qed.

(** The full answer, for positions whose read does not matter. *)
Definition full_read (file : bstr) (size p : nat) : nat := Nat.min size (length file - p).
Lemma full_read_ok file size p : read_ok file size p (full_read file size p).
Proof. unfold read_ok, full_read. lia. Qed.

(** One step with scripts is a step of the sampler without errors. *)
Lemma file_next_io_cases file size pos script :
  match script with
  | [] => file_next_io file size pos script = OutOfFuel
  | Got k :: s =>
      let got := length (firstn (Nat.min size (S k)) (skipn pos file)) in
      match file_next_io file size pos script with
      | Ret (r, s') => file_next file size pos got = Ret r /\ (s' = s \/ exists a, s = a :: s')
      | Panic => file_next file size pos got = Panic \/ In Failed s \/ In Interrupted s
      | OutOfFuel => s = []
      end
  | _ => file_next_io file size pos script = Panic
  end.
Proof.
  destruct script as [|[k| |] s]; try reflexivity. cbv zeta. unfold file_next_io, file_next, os_read. cbn [bind].
  set (d := firstn (Nat.min size (S k)) (skipn pos file)).
  assert (Ed : firstn (length d) (skipn pos file) = d).
  { unfold d. rewrite firstn_length.
    destruct (Nat.le_gt_cases (Nat.min size (S k)) (length (skipn pos file))) as [H|H].
    - rewrite Nat.min_l by exact H. reflexivity.
    - rewrite Nat.min_r by lia. rewrite !firstn_all2 by lia. reflexivity. }
  rewrite Ed. destruct (length d =? 0); [auto|].
  assert (Sv : forall v, sample_from_vec v = Ret v \/ sample_from_vec v = Panic)
    by (intros v; unfold sample_from_vec; destruct (utf8_valid v); cbn; auto).
  destruct (length d <? size).
  - destruct (Sv d) as [-> | ->]; cbn [bind]; auto.
  - destruct (C29_paragraph_end d (length d) (le_n _)) as (stop & -> & _). cbn [bind].
    destruct (stop <? length d).
    + unfold os_seek. destruct s as [|[k'| |] s']; cbn [bind]; [reflexivity| |right; right; left; reflexivity|right; left; left; reflexivity].
      destruct (Sv (firstn stop d)) as [-> | ->]; cbn [bind]; eauto.
    + destruct (Sv d) as [-> | ->]; cbn [bind]; auto.
Qed.

Lemma file_samples_io_spec file size : 0 < size -> forall fuel pos script, length file - pos < fuel -> pos <= length file ->
  (forall l, file_samples_io fuel file size pos script = Ret l ->
     exists reads, (forall p, read_ok file size p (reads p)) /\ file_samples fuel reads file size pos = Ret l) /\
  (file_samples_io fuel file size pos script = Panic ->
     In Failed script \/ In Interrupted script \/
     exists reads, (forall p, read_ok file size p (reads p)) /\ file_samples fuel reads file size pos = Panic) /\
  (file_samples_io fuel file size pos script = OutOfFuel -> length script <= 2 * (length file - pos)).
Proof.
  intros Hs. induction fuel as [|f IH]; intros pos script Hf Hp; [lia|].
  cbn [file_samples_io]. pose proof (file_next_io_cases file size pos script) as H.
  destruct script as [|[k| |] s].
  - rewrite H. cbn [bind length]. split; [discriminate|]. split; [discriminate|]. lia.
  - cbv zeta in H. pose proof (os_read_ok file pos size k) as Hok.
    set (got := length (firstn (Nat.min size (S k)) (skipn pos file))) in *.
    set (rd := fun (later : nat -> nat) p => if p =? pos then got else later p).
    assert (Hrd : forall later, (forall p, read_ok file size p (later p)) -> forall p, read_ok file size p (rd later p)).
    { intros later Hl p. unfold rd. destruct (Nat.eqb_spec p pos) as [->|]; auto. }
    assert (Hat : forall later, rd later pos = got) by (intros later; unfold rd; rewrite Nat.eqb_refl; reflexivity).
    destruct (file_next_io file size pos (Got k :: s)) as [[[[x p]|] s']| |] eqn:En; cbn [bind].
    + destruct H as (Hn & Hs'). destruct (file_next_later _ _ _ _ _ _ Hs Hok Hn) as (Hlt & Hle).
      destruct (IH p s' ltac:(lia) Hle) as (I1 & I2 & I3).
      assert (Hin : forall a, In a s' -> In a (Got k :: s)).
      { intros a Ha. right. destruct Hs' as [->|(b & ->)]; [exact Ha|right; exact Ha]. }
      assert (Hls : length (Got k :: s) <= 2 + length s') by (destruct Hs' as [->|(b & ->)]; cbn; lia).
      assert (Hext : forall later, (forall q, read_ok file size q (later q)) ->
        file_samples (S f) (rd later) file size pos = (rest <- file_samples f later file size p ;; Ret (x :: rest))).
      { intros later Hl. cbn [file_samples]. rewrite Hat, Hn. cbn [bind].
        rewrite (file_samples_ext file size f (rd later) later p); [reflexivity|].
        intros q Hq. unfold rd. destruct (Nat.eqb_spec q pos); [lia|reflexivity]. }
      destruct (file_samples_io f file size p s') as [l'| |] eqn:E; cbn [bind].
      * split; [|split; discriminate]. intros l El. injection El as <-.
        destruct (I1 l' eq_refl) as (later & Hl & E'). exists (rd later). split; [apply Hrd; exact Hl|].
        rewrite Hext by exact Hl. rewrite E'. reflexivity.
      * split; [discriminate|]. split; [|discriminate]. intros _.
        destruct (I2 eq_refl) as [Hf'|[Hi|(later & Hl & E')]]; [left; auto|right; left; auto|].
        right; right. exists (rd later). split; [apply Hrd; exact Hl|]. rewrite Hext by exact Hl. rewrite E'. reflexivity.
      * split; [discriminate|]. split; [discriminate|]. intros _. specialize (I3 eq_refl). lia.
    + destruct H as (Hn & _). split; [|split; discriminate]. intros l El. injection El as <-.
      exists (rd (full_read file size)). split; [apply Hrd; apply full_read_ok|]. cbn [file_samples]. rewrite Hat, Hn. reflexivity.
    + split; [discriminate|]. split; [|discriminate]. intros _.
      destruct H as [Hn|[Hi|Hi]]; [|left; right; exact Hi|right; left; right; exact Hi].
      right; right. exists (rd (full_read file size)). split; [apply Hrd; apply full_read_ok|]. cbn [file_samples]. rewrite Hat, Hn. reflexivity.
    + subst s. split; [discriminate|]. split; [discriminate|]. intros _. cbn.
      (* a seek is needed only if bytes were read *)
      destruct (Nat.eq_dec (length file - pos) 0) as [E0|]; [|lia]. exfalso.
      unfold file_next_io, os_read in En. cbn [bind] in En.
      rewrite (skipn_all2 file) in En by lia. rewrite firstn_nil in En. cbn in En. discriminate.
  - rewrite H. cbn [bind]. split; [discriminate|]. split; [|discriminate]. intros _. right; left; left; reflexivity.
  - rewrite H. cbn [bind]. split; [discriminate|]. split; [|discriminate]. intros _. left; left; reflexivity.
Qed.

(** The file sampler without a limit: samples that end normally are the whole
    file, for every behaviour of the file; a panic is due to an error of a read
    or seek, or one that occurs without errors, too (C28). *)
Theorem C101_file_sampler : forall file size script, 0 < size ->
  let run := file_samples_io (S (length file)) file size 0 script in
  (forall l, run = Ret l -> concat l = file /\
     exists reads, (forall p, read_ok file size p (reads p)) /\ file_samples (S (length file)) reads file size 0 = Ret l) /\
  (run = Panic -> In Failed script \/ In Interrupted script \/
     exists reads, (forall p, read_ok file size p (reads p)) /\ file_samples (S (length file)) reads file size 0 = Panic) /\
  (run = OutOfFuel -> length script <= 2 * length file).
Proof.
  intros file size script Hs run. unfold run. clear run.
  destruct (file_samples_io_spec file size Hs (S (length file)) 0 script ltac:(lia) ltac:(lia)) as (H1 & H2 & H3).
  split; [|split; [exact H2|rewrite Nat.sub_0_r in H3; exact H3]].
  intros l El. destruct (H1 l El) as (reads & Hok & E). split; [|eauto].
  destruct (C28_file_read_exactly_once reads file size (S (length file)) Hs Hok ltac:(lia)) as [Ep|(l' & El' & Hc & _)]; congruence.
Qed.

(** With a limit of samples. *)
Lemma file_random_io_spec file size starts : forall k i script l,
  file_random_samples_io file size starts i k script = Ret l ->
  exists gotn : nat -> nat, (forall j, read_ok file size (starts j) (gotn j)) /\
    mmap (fun j => file_next_random file size (starts j) (gotn j)) (seq i k) = Ret l.
Proof.
  induction k as [|k IH]; intros i script l H; cbn [file_random_samples_io] in H.
  - injection H as <-. exists (fun j => full_read file size (starts j)). split; [intros j; apply full_read_ok|reflexivity].
  - apply bind_ret in H as ([] & Hst & H). apply bind_ret in H as (s1 & _ & H). apply bind_ret in H as ([res s2] & Hr & H).
    unfold os_read in Hr. destruct s1 as [|[g| |] s1]; try discriminate; injection Hr as <- <-; try discriminate.
    apply bind_ret in H as (stop & Hp & H). apply bind_ret in H as (x & Hx & H). apply bind_ret in H as (rest & Hrest & H).
    injection H as <-. destruct (IH _ _ _ Hrest) as (gotn & Hok & Hm).
    set (d := firstn (Nat.min size (S g)) (skipn (starts i) file)) in *.
    exists (fun j => if j =? i then length d else gotn j). split.
    { intros j. destruct (Nat.eqb_spec j i) as [->|]; [apply os_read_ok|apply Hok]. }
    cbn [seq mmap]. unfold file_next_random at 1. rewrite Hst, Nat.eqb_refl. cbn [bind].
    assert (Ed : firstn (length d) (skipn (starts i) file) = d).
    { unfold d. rewrite firstn_length. destruct (Nat.le_gt_cases (Nat.min size (S g)) (length (skipn (starts i) file))).
      - rewrite Nat.min_l by assumption. reflexivity.
      - rewrite Nat.min_r by lia. rewrite !firstn_all2 by lia. reflexivity. }
    rewrite Ed, Hp. cbn [bind]. rewrite Hx. cbn [bind].
    assert (Hm' : mmap (fun j => file_next_random file size (starts j) (if j =? i then length d else gotn j)) (seq (S i) k) = Ret rest).
    { rewrite <- Hm. clear. assert (G : forall l, ~ In i l -> mmap (fun j => file_next_random file size (starts j) (if j =? i then length d else gotn j)) l
                                  = mmap (fun j => file_next_random file size (starts j) (gotn j)) l).
      { induction l as [|x l IHl]; intros Hn; [reflexivity|]. cbn [mmap]. destruct (Nat.eqb_spec x i) as [->|]; [exfalso; apply Hn; left; reflexivity|].
        rewrite IHl by (intros Hi; apply Hn; right; exact Hi). reflexivity. }
      apply G. rewrite in_seq. lia. }
    rewrite Hm'. reflexivity.
Qed.

(** [all_got k script]: the first [k] calls are answered, and none of them by an error *)
Definition all_got (k : nat) (script : list answer) : Prop :=
  k <= length script /\ forall a, In a (firstn k script) -> a <> Interrupted /\ a <> Failed.

Lemma all_got_cons2 k g h s : all_got (2 * k) s -> all_got (2 * S k) (Got g :: Got h :: s).
Proof.
  intros (H1 & H2). replace (2 * S k) with (S (S (2 * k))) by lia. split; [cbn [length]; lia|].
  intros a. cbn [firstn]. intros [<-|[<-|Ha]]; [split; discriminate|split; discriminate|apply H2; exact Ha].
Qed.

Lemma file_random_io_got file size starts : forall k i script l,
  file_random_samples_io file size starts i k script = Ret l -> all_got (2 * k) script.
Proof.
  induction k as [|k IH]; intros i script l H; cbn [file_random_samples_io] in H.
  - split; [cbn; lia|]. intros a [].
  - apply bind_ret in H as ([] & Hst & H). apply bind_ret in H as (s1 & Hs & H). apply bind_ret in H as ([res s2] & Hr & H).
    unfold os_seek in Hs. destruct script as [|[h| |] s0]; try discriminate. injection Hs as <-.
    unfold os_read in Hr. destruct s0 as [|[g| |] s1]; try discriminate; injection Hr as <- <-; try discriminate.
    apply bind_ret in H as (stop & Hp & H). apply bind_ret in H as (x & Hx & H). apply bind_ret in H as (rest & Hrest & H).
    apply all_got_cons2. eapply IH; exact Hrest.
Qed.

Lemma preload_io_got file size step : forall k i script chunks,
  preload_chunks_io file size step i k script = Ret chunks -> all_got (2 * k) script.
Proof.
  induction k as [|k IH]; intros i script chunks H; cbn [preload_chunks_io] in H.
  - split; [cbn; lia|]. intros a [].
  - apply bind_ret in H as (s1 & Hs & H). apply bind_ret in H as ([res s2] & Hr & H).
    unfold os_seek in Hs. destruct script as [|[h| |] s0]; try discriminate. injection Hs as <-.
    unfold os_read in Hr. destruct s0 as [|[g| |] s1]; try discriminate; injection Hr as <- <-; try discriminate.
    apply bind_ret in H as (para & Hp & H). apply bind_ret in H as (c' & Hc' & H). apply bind_ret in H as (v & Hv & H).
    apply bind_ret in H as (rest & Hrest & H). apply all_got_cons2. eapply IH; exact Hrest.
Qed.

(** Samples are returned only if no seek and no read failed; they are those of C68. *)
Theorem C101_random_samples : forall file size starts k script l,
  file_random_samples_io file size starts 0 k script = Ret l ->
  length l = k /\ all_got (2 * k) script /\
  exists draw, (forall i, fst (draw i) = starts i /\ read_ok file size (starts i) (snd (draw i))) /\
    file_random_samples file size k draw = Ret l.
Proof.
  intros file size starts k script l H. destruct (file_random_io_spec file size starts k 0 script l H) as (gotn & Hok & Hm). split.
  - assert (G : forall A B (f : A -> outcome B) xs ys, mmap f xs = Ret ys -> length ys = length xs).
    { clear. induction xs as [|x xs IH]; intros ys H; cbn in H; [injection H as <-; reflexivity|].
      apply bind_ret in H as (y & _ & H). apply bind_ret in H as (zs & Hz & H). injection H as <-. cbn. f_equal. apply IH; exact Hz. }
    rewrite (G _ _ _ _ _ Hm). apply seq_length.
  - split; [exact (file_random_io_got _ _ _ _ _ _ _ H)|]. exists (fun i => (starts i, gotn i)). split; [intros i; split; [reflexivity|apply Hok]|]. exact Hm.
Qed.

(** ** The preloaded sampler *)
Lemma preload_io_chunk file size step : forall k i script chunks, (i + k) * step <= length file -> size <= step ->
  preload_chunks_io file size step i k script = Ret chunks ->
  length chunks = k /\ forall j c, nth_error chunks j = Some c ->
    exists start, lies_at file c ((i + j) * step) ((i + j) * step + size) start.
Proof.
  induction k as [|k IH]; intros i script chunks Hw Hs H; cbn [preload_chunks_io] in H.
  - injection H as <-. split; [reflexivity|]. intros [|j] c Hc; discriminate.
  - apply bind_ret in H as (s1 & _ & H). apply bind_ret in H as ([res s2] & Hr & H).
    unfold os_read in Hr. destruct s1 as [|[g| |] s1]; try discriminate; injection Hr as <- <-; try discriminate.
    apply bind_ret in H as (para & Hp & H). apply bind_ret in H as (c' & Hc' & H). apply bind_ret in H as (v & Hv & H).
    apply bind_ret in H as (rest & Hrest & H). injection H as <-.
    destruct (IH (S i) _ _ ltac:(nia) Hs Hrest) as (Hl & Hn). split; [cbn; f_equal; exact Hl|].
    intros [|j] c Hc.
    + cbn in Hc. injection Hc as <-. rewrite Nat.add_0_r.
      destruct (preload_chunk_sub file (Nat.min size (S g)) step i (if length v =? length c' then c' else v)) as (start & H1 & H2 & H3 & H4).
      * nia.
      * unfold preload_chunk. rewrite Hp. cbn [bind]. rewrite Hc'. cbn [bind]. rewrite Hv. reflexivity.
      * exists start. split; [exact H1|]. split; [|split; [|exact H4]].
        -- pose proof (Nat.le_min_l size (S g)). eapply Nat.le_trans; [exact H2|]. lia.
        -- assert (i * step + step <= (i + S k) * step) by nia. lia.
    + cbn in Hc. destruct (Hn j c Hc) as (start & Hst). exists start. replace (i + S j) with (S i + j) by lia. exact Hst.
Qed.

(** The windows stay inside the file and apart whatever reads return. *)
Theorem C101_preloaded_windows : forall file sample_size max_samples script chunks total,
  preload_io file sample_size max_samples script = Ret (chunks, total) ->
  exists size step, size <= step /\ length chunks * step <= length file /\ size <= sample_size /\
    (forall i c, nth_error chunks i = Some c ->
       exists start, lies_at file c (i * step) (i * step + size) start) /\
    total = list_sum (map (@List.length byte) chunks) /\ all_got (2 * length chunks) script.
Proof.
  intros file ss ms script chunks total H. unfold preload_io in H.
  destruct (preload_plan (length file) ss ms) as [size n] eqn:Ep.
  apply bind_ret in H as ([] & Hn & H). apply bind_ret in H as (cs & Hc & H). injection H as <- <-.
  assert (Hn0 : n <> 0) by (intros ->; cbn in Hn; discriminate).
  destruct (preload_plan_spec _ _ _ _ _ Ep Hn0) as (P1 & P2 & P3 & _).
  destruct (preload_io_chunk file size (length file / n) n 0 script cs P2 P1 Hc) as (Hl & Hw).
  exists size, (length file / n). rewrite Hl. split; [exact P1|]. split; [exact P2|]. split; [exact P3|]. split; [exact Hw|].
  split; [reflexivity|exact (preload_io_got _ _ _ _ _ _ _ Hc)].
Qed.

(** But a short read is not repeated: the rest of the window is left out
    without any error. *)
Theorem C101_preloaded_short_read : exists file script,
  (forall a, In a script -> exists k, a = Got k) /\
  preload_io file 2 1 script = Ret ([[x61]], 1) /\ preload file 2 1 = Ret ([[x61; x62]], 2).
Proof.
  exists [x61; x62], [Got 0; Got 0]. split; [|split; reflexivity].
  intros a [<-|[<-|[]]]; eauto.
Qed.

(** ** Examples *)
(** A file of two lines, read in pieces with interruptions in between. *)
Example C101_example :
  let file := [x61; x0a; x0a; x62] in
  read_file_io (fun _ => 1) [Interrupted; Got 5; Interrupted; Got 0; Got 0; Got 0] file = Ret file /\
  read_file_io (fun _ => 1) [Got 5; Failed] file = Panic /\
  (exists v, count_chars_io 3 [Got 0; Interrupted; Got 0; Got 9; Got 0; Got 0] file = Ret v /\ count_chars file = Ret v /\ fst (fst v) = 4) /\
  count_chars_io 3 [Got 0; Interrupted; Got 0; Got 9; Failed] file = Panic /\
  file_samples_io 5 file 3 0 [Got 0; Got 2; Got 0; Got 0; Got 0] = Ret [[x61]; [x0a; x0a]; [x62]] /\
  file_samples_io 5 file 3 0 [Got 0; Got 2; Failed] = Panic.
Proof.
  cbv zeta. split; [reflexivity|]. split; [reflexivity|]. split; [|repeat split; reflexivity].
  eexists. split; [vm_compute; reflexivity|]. split; vm_compute; reflexivity.
Qed.
