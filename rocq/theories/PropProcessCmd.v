(** * Property C69: the command process and its files. *)
From Coq Require Import String.
From Verif Require Import Base BaseLemmas Utf8 TokenSetModel SamplerModel ProcessingModel PropProcessing CommandsModel.
Local Open Scope list_scope.
Local Notation length := List.length.

Lemma put_same d x t : put_file d x t x = Some t.
Proof. unfold put_file. rewrite String.eqb_refl. reflexivity. Qed.
Lemma put_other d x t y : y <> x -> put_file d x t y = d y.
Proof. intros H. unfold put_file. rewrite (proj2 (String.eqb_neq y x)) by exact H. reflexivity. Qed.

(** If the two files are different: the output is the processed text. *)
Theorem C69_process_command_partial : forall U script d data output file,
  table_ok U -> data <> output -> d data = Some file -> utf8 file -> never_refuses script ->
  exists out d', process_str U (lines_text file) = Ret out /\
    process_command U script d data output = (d', true) /\
    d' output = Some out /\ d' data = Some file /\ forall x, x <> output -> d' x = d x.
Proof.
  intros U script d data output file Hok Hne Hd Hu Hn.
  destruct (C33_file_processing U default_capacity script file Hok Hn Hu) as (out & E & F).
  exists out, (put_file (put_file d output []) output out). split; [exact E|]. unfold process_command.
  rewrite Hd, put_other, Hd, F by congruence. split; [reflexivity|]. split; [apply put_same|].
  split; [rewrite !put_other by congruence; exact Hd|]. intros x Hx. rewrite !put_other by exact Hx. reflexivity.
Qed.

(** Whatever happens, no other file changes; and if the two files are
    different, an interrupted or failed run leaves a beginning of the processed
    text. *)
Theorem C69_other_files_untouched : forall U script d data output d' ok,
  process_command U script d data output = (d', ok) ->
  (forall x, x <> output -> d' x = d x) /\ (d data = None -> d' = d /\ ok = false).
Proof.
  intros U script d data output d' ok. unfold process_command. destruct (d data) as [file|] eqn:Ed.
  - intros E. split; [|discriminate]. intros x Hx.
    destruct (put_file d output [] data) as [raw|]; [destruct (process_file _ _ _ _) as [[ok' sink]| |]|];
      injection E as <- <-; rewrite ?put_other by exact Hx; reflexivity.
  - intros E; injection E as <- <-. auto.
Qed.

Theorem C69_failed_run : forall U script d data output file out,
  table_ok U -> data <> output -> d data = Some file -> utf8 file ->
  process_str U (lines_text file) = Ret out ->
  exists d' ok sink missing, process_command U script d data output = (d', ok) /\ d' output = Some sink /\
    out = sink ++ missing /\ (ok = true -> length missing <= default_capacity).
Proof.
  intros U script d data output file out Hok Hne Hd Hu Eo.
  destruct (C34_success_partial U default_capacity script file Hok Hu) as (ok & sink & out' & missing & E & E' & F & G).
  rewrite E' in Eo. assert (out' = out) as -> by congruence. unfold process_command. rewrite Hd, put_other, Hd, E by congruence.
  eexists _, ok, sink, missing. split; [reflexivity|]. split; [apply put_same|]. auto.
Qed.

(** With the data file as output, the text is lost and the command reports success. *)
Theorem C69_process_command_refuted : forall U script d data file,
  d data = Some file ->
  exists d', process_command U script d data data = (d', true) /\ d' data = Some [].
Proof.
  intros U script d data file Hd. unfold process_command. rewrite Hd, put_same.
  assert (E : process_file U default_capacity script [] = Ret (true, [])) by (destruct script as [|[k|] r]; reflexivity).
  rewrite E. eexists. split; [reflexivity|]. apply put_same.
Qed.

(** The hypotheses hold for instance for "Go." with ASCII tables. *)
Example C69_hypotheses_met :
  let d := fun x => if String.eqb x "a" then Some [x2e; x0a] else None in
  "a"%string <> "b"%string /\ d "a"%string = Some [x2e; x0a] /\ utf8 [x2e; x0a] /\ never_refuses [Accept 0].
Proof.
  split; [discriminate|]. split; [reflexivity|]. split; [apply utf8_ascii; repeat constructor; cbn; lia|].
  intros [H|[]]. discriminate.
Qed.
