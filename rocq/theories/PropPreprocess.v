(** * Property C109: processing the data beforehand changes nothing. *)
From Coq Require Import String.
From Verif Require Import Base BaseLemmas Utf8 TokenSetModel TokenizerModel BatchModel SamplerModel ProcessingModel PropProcessing
  CacheModel OptimizeModel JsonModel MainModel CommandsModel PropProcessCmd ArgsModel PropArgs ProgramModel.
Local Open Scope list_scope.
Local Notation length := List.length.

(** A command with another value of --processed-data. *)
Definition with_processed (c : command) (pd : option string) : command :=
  match c with
  | ConvertTokens data _ input tdir => ConvertTokens data pd input tdir
  | Optimize data _ tdir p t n input min => Optimize data pd tdir p t n input min
  | c => c
  end.
(** The data file of a command that tokenizes. *)
Definition data_file (c : command) : option string :=
  match c with
  | ConvertTokens data _ _ _ | Optimize data _ _ _ _ _ _ _ => Some data
  | _ => None
  end.

Section Same.
Variables (X : system) (fs : dir) (data out : string).
Hypothesis Hsame : forall p, open_data X fs data (Some out) p = open_data X fs data None p.

Lemma same_convert input : start_convert X fs data (Some out) input = start_convert X fs data None input.
Proof. unfold start_convert. destruct (open_token_set fs input); cbn; [|reflexivity..]. rewrite Hsame. reflexivity. Qed.
Lemma same_optimize p input : start_optimize X fs data (Some out) p input = start_optimize X fs data None p input.
Proof. unfold start_optimize. rewrite Hsame. reflexivity. Qed.
Lemma same_increasing p input : start_increasing X fs data (Some out) p input = start_increasing X fs data None p input.
Proof. unfold start_increasing. rewrite Hsame. reflexivity. Qed.

Lemma same_ends args args' c pd pd' e fs' : data_file c = Some data ->
  (pd = Some out /\ pd' = None \/ pd = None /\ pd' = Some out) ->
  parse_args args = Some (with_processed c pd) -> parse_args args' = Some (with_processed c pd') ->
  ends X fs args e fs' -> ends X fs args' e fs'.
Proof.
  intros Hd Hpd Ha Ha' H.
  assert (C1 : forall input, start_convert X fs data pd input = start_convert X fs data pd' input)
    by (intros; destruct Hpd as [(-> & ->)|(-> & ->)]; [apply same_convert|symmetry; apply same_convert]).
  assert (C2 : forall p input, start_optimize X fs data pd p input = start_optimize X fs data pd' p input)
    by (intros; destruct Hpd as [(-> & ->)|(-> & ->)]; [apply same_optimize|symmetry; apply same_optimize]).
  assert (C3 : forall p input, start_increasing X fs data pd p input = start_increasing X fs data pd' p input)
    by (intros; destruct Hpd as [(-> & ->)|(-> & ->)]; [apply same_increasing|symmetry; apply same_increasing]).
  clear Hpd.
  destruct H as [H|? ? ? ? H|? ? H|? ? H|? H|? ? ? ? H|? ? ? ? ? ? ? ? ? ? ? ? H|? ? ? ? ? ? ? ? ? H|? ? ? ? ? ? ? H|? ? ? ? ? ? ? ? ? ? ? ? ? ? H|? ? ? ? ? ? ? ? ? ? ? ? ? ? H|? ? ? ? ? ? ? ? ? ? ? ? ? ? H|? ? ? ? ? ? ? ? ? ? ? ? ? ? ? H|? ? ? ? ? ? ? ? H|? ? ? ? ? ? ? ? ? ? ? ? ? ? ? H|? ? ? ? ? ? ? ? ? ? ? ? ? ? ? ? H|? ? ? ? ? ? ? ? ? ? ? ? ? ? ? ? ? ? ? H|? ? ? ? ? ? ? ? ? ? ? ? ? ? ? H|? ? ? ? ? ? ? ? ? ? ? ? ? ? ? H];
    rewrite Ha in H; try discriminate H;
    (destruct c; cbn [with_processed data_file] in *; try discriminate H; try discriminate Hd;
     injection Hd as ->; injection H as; subst).
  all: rewrite ?C1, ?C2, ?C3 in *.
  all: try solve [eapply end_convert_panic; eassumption | eapply end_convert; eassumption | eapply end_convert_text; eassumption
    | eapply end_optimize_start; eassumption | eapply end_optimize_write; eassumption | eapply end_optimize_panic; eassumption
    | eapply end_optimize_text; eassumption | eapply end_optimize; eassumption
    | eapply end_increasing_start; eassumption | eapply end_increasing_write; eassumption | eapply end_increasing_panic; eassumption
    | eapply end_increasing_search; eassumption | eapply end_increasing_text; eassumption | eapply end_increasing; eassumption].
Qed.
End Same.

Lemma processed_content X0 X fs data out raw fs' : x_unicode X0 = x_unicode X -> table_ok (x_unicode X) ->
  never_refuses (x_script X0) -> never_refuses (x_script X) ->
  data <> out -> fs data = Some raw -> process_command (x_unicode X0) (x_script X0) fs data out = (fs', true) ->
  exists content, fs' data = Some raw /\ fs' out = Some content /\
    maybe_process (x_unicode X) (x_script X) raw None CapsWords = Ret content.
Proof.
  intros EU HU R0 R1 Hne Hd H.
  assert (Hr : utf8 raw).
  { apply utf8_valid_spec. destruct (utf8_valid raw) eqn:V; [reflexivity|]. exfalso.
    assert (Hv : ~ utf8 raw) by (intros U; apply utf8_valid_spec in U; congruence).
    unfold process_command in H. rewrite Hd in H.
    assert (E : put_file fs out [] data = Some raw).
    { unfold put_file. destruct (String.eqb_spec data out); [contradiction|exact Hd]. }
    rewrite E in H. rewrite EU in H.
    destruct (C33_invalid_text_is_reported (x_unicode X) default_capacity (x_script X0) raw HU Hv) as (sink & Es).
    rewrite Es in H. discriminate H. }
  destruct (C69_process_command_partial (x_unicode X0) (x_script X0) fs data out raw) as (o & d' & Eo & Ec & Ho & Hdd & _); try assumption; [rewrite EU; exact HU|].
  rewrite H in Ec. injection Ec as <-. exists o. split; [exact Hdd|]. split; [exact Ho|].
  destruct (C33_file_processing (x_unicode X) default_capacity (x_script X) raw HU R1 Hr) as (o' & Eo' & Ef).
  rewrite EU in Eo. rewrite Eo in Eo'. injection Eo' as <-. unfold maybe_process. rewrite Ef. reflexivity.
Qed.

(** After a run of [process data out] that ended normally and whose writes the disk
    accepted, and while the two files stay as they are, every run of convert-tokens or optimize on
    the data can end in the same ways and leave the same files with
    --processed-data out as without it. *)
Theorem C109_processing_beforehand_partial : forall X0 X fs fs' fs1 args0 args args' c data out raw,
  x_unicode X0 = x_unicode X -> table_ok (x_unicode X) -> never_refuses (x_script X0) -> never_refuses (x_script X) ->
  data <> out -> fs data = Some raw ->
  parse_args args0 = Some (Process data out) -> ends X0 fs args0 Normal fs' ->
  fs1 data = fs' data -> fs1 out = fs' out ->
  data_file c = Some data ->
  parse_args args = Some (with_processed c (Some out)) -> parse_args args' = Some (with_processed c None) ->
  forall e fs2, ends X fs1 args e fs2 <-> ends X fs1 args' e fs2.
Proof.
  intros X0 X fs fs' fs1 args0 args args' c data out raw EU HU R0 R1 Hne Hd Ha0 H0 E1 E2 Hc Ha Ha' e fs2.
  assert (Hp : process_command (x_unicode X0) (x_script X0) fs data out = (fs', true)).
  { inversion H0; subst; try congruence. match goal with K : parse_args args0 = Some (Process _ _) |- _ => rewrite Ha0 in K; injection K as <- <- end.
    destruct ok; [assumption|discriminate]. }
  destruct (processed_content X0 X fs data out raw fs' EU HU R0 R1 Hne Hd Hp) as (content & F1 & F2 & F3).
  assert (Hsame : forall p, open_data X fs1 data (Some out) p = open_data X fs1 data None p).
  { intros []; unfold open_data; rewrite E1, F1; cbn [unwrap bind]; [reflexivity|]. rewrite E2, F2, F3. reflexivity. }
  split; intros H.
  - apply (same_ends X fs1 data out Hsame args args' c (Some out) None); auto.
  - apply (same_ends X fs1 data out Hsame args' args c None (Some out)); auto.
Qed.

Lemma lost_newline U : table_ok U -> process_str U [x0a] = Ret [x0a] /\ process_file U default_capacity [Refuse] [x0a] = Ret (true, []).
Proof.
  intros Hok. assert (E0 : process_str U [] = Ret []) by reflexivity.
  split; [exact (process_str_newline U Hok [] [] [] [] utf8_nil E0 E0)|].
  unfold process_file. cbn [length process_lines read_line].
  change (Byte.eqb x0a x0a) with true. cbv iota.
  change (utf8_valid [x0a]) with true. cbn [negb].
  change (strip_line [x0a]) with (@nil byte). rewrite E0. cbn [bind].
  assert (Hcap : 8 <= default_capacity) by (unfold default_capacity; lia).
  generalize dependent default_capacity. intros cap Hcap.
  unfold bw_write at 1. cbn [bw_buf bw_sink bw_script length app]. rewrite Nat.sub_0_r.
  rewrite (proj2 (Nat.ltb_lt 0 cap)) by lia. cbn [negb].
  unfold bw_write at 1. cbn [bw_buf bw_sink bw_script length app]. rewrite Nat.sub_0_r.
  rewrite (proj2 (Nat.ltb_lt 1 cap)) by lia. reflexivity.
Qed.

(** The process command may end normally although its last write failed (C34).  Then a later
    run with --processed-data reads an empty text where a run without it reads a line. *)
Theorem C109_success_refuted : forall X, table_ok (x_unicode X) -> never_refuses (x_script X) ->
  exists X0 fs fs' raw content args0, x_unicode X0 = x_unicode X /\
    fs "data.txt"%string = Some raw /\
    parse_args args0 = Some (Process "data.txt" "out.txt") /\ ends X0 fs args0 Normal fs' /\
    open_data X fs' "data.txt" (Some "out.txt"%string) CapsWords = Ret (raw, []) /\
    open_data X fs' "data.txt" None CapsWords = Ret (raw, content) /\ content <> [].
Proof.
  intros X HU R.
  destruct (lost_newline (x_unicode X) HU) as (Ho & Hf).
  assert (Hv : utf8 [x0a]) by (apply utf8_ascii; repeat constructor; cbn; lia).
  remember [x0a] as file eqn:Efile. remember [Refuse] as script.
  destruct (C33_file_processing (x_unicode X) default_capacity (x_script X) file HU R Hv) as (o' & Eo' & Ef).
  exists (mkSystem (x_unicode X) script (x_threads X) (x_ratio X) (x_reads X) (x_order X) (x_clock X) (x_near X) (x_below X)
           (x_rounds X) (fun _ => true)).
  exists (put_file (fun _ => None) "data.txt"%string file), (put_file (put_file (put_file (fun _ => None) "data.txt"%string file) "out.txt"%string []) "out.txt"%string []), file, o',
    ["process"; "--data"; "data.txt"; "--output"; "out.txt"]%string.
  split; [reflexivity|]. split; [reflexivity|]. split; [reflexivity|]. split.
  - change Normal with (status true). eapply end_process; [reflexivity|reflexivity|].
    assert (G : forall d d1, d "data.txt"%string = Some file -> d1 = put_file d "out.txt"%string [] -> d1 "data.txt"%string = Some file ->
      process_command (x_unicode X) script d "data.txt" "out.txt" = (put_file d1 "out.txt"%string [], true)).
    { intros d d1 E1 -> E2. unfold process_command. rewrite E1. cbv zeta. rewrite E2, Hf. reflexivity. }
    apply (G _ _ eq_refl eq_refl eq_refl).
  - split; [reflexivity|]. split.
    2:{ intros ->. subst file. change (lines_text [x0a]) with [x0a] in Eo'. congruence. }
    unfold open_data.
    change (put_file (put_file (put_file (fun _ => None) "data.txt"%string file) "out.txt"%string []) "out.txt"%string [] "data.txt"%string) with (Some file).
    cbn [unwrap bind maybe_process].
    rewrite Ef. reflexivity.
Qed.

(** Two command lines that differ in --processed-data only. *)
Example C109_example :
  let c := ConvertTokens "data.txt" None "set.json" "out" in
  data_file c = Some "data.txt"%string /\
  parse_args ["convert-tokens"; "-d"; "data.txt"; "--processed-data"; "out.txt"; "-i"; "set.json"; "-t"; "out"]%string
    = Some (with_processed c (Some "out.txt"%string)) /\
  parse_args ["convert-tokens"; "-d"; "data.txt"; "-i"; "set.json"; "-t"; "out"]%string = Some (with_processed c None).
Proof. repeat split. Qed.
