(** * C93: any history of commands leaves a directory in which every file that loads is what its
    name says and can be started from. *)
From Coq Require Import String ZArith.
From Verif Require Import Base BaseLemmas Utf8 TokenSetModel TokenizerModel TokSpec SortLemmas
  TokenizerProof1 TokenSetProof TokenizerTheory TokenSetProof2 PropTokenSet PropTokenizer StatsAlgebra BatchModel PropBatch
  JsonModel JsonText JsonProof PropJson Shaped SamplerModel PropSampler ProcessingModel CacheModel PropCache OptBytesModel OptimizeModel
  OptimizeProof1 OptimizeProof2 OptimizeProof5 OptimizeProof6 OptimizeProof7
  OptimizeProof3 OptimizeProof4 OptimizeProof8 PropOptimize PropDeterminism PropFixpoint MainModel PropMain CommandsModel PropFiles PropCommands PropOptFiles
  PropIncreasing PropOptStats JsonRead PrettyModel PropPretty.
Local Open Scope list_scope.
Local Notation length := List.length.
Local Notation written := CommandsModel.written.

(** ** Specification *)

(** The starting set given to an optimization: none, or a file of the directory; if it loads, it
    is of the requested kind and not larger than requested. *)
Definition given (d : dir) (n : nat) (p : processing) (t : token_type) (input : option bstr) : Prop :=
  input = None \/
  exists name text, d name = Some text /\ input = Some text /\
    forall ts, read_token_set text = Ret ts -> ts_type ts = t /\ ts_processing ts = p /\ ntokens ts <= n.

(** What the surroundings of a run must provide: a thread, a sort that only reorders, a supported
    size, reads that return something, no limit on the rounds that matters. *)
Definition surroundings (threads rounds n : nat) (t : token_type) order (reads : nat -> nat) (data : bstr) : Prop :=
  1 <= threads /\ shuffles order /\ supported t n /\ (let b := 258 * (3 * length data) in S (n * S b + b) <= rounds) /\
  (forall pos, read_ok data (N.to_nat large) pos (reads pos)).

(** What may happen to a directory.  Every command may be killed at any moment: it
    leaves what [during_write(s)] describes. *)
Inductive event (d : dir) : dir -> Prop :=
| ev_optimize U script threads ratio reads order clock rounds n p t raw processed data input m ws d' :
    surroundings threads rounds n t order reads data -> given d n p t input ->
    maybe_process U script raw processed p = Ret data ->
    optimize_run U script threads reads order clock rounds n p t raw processed input m ->
    (forall s, returned m s -> writable ratio s) ->
    written ratio m = Ret ws -> during_writes d ws d' -> event d d'
| ev_increasing U script threads ratio reads order clock near below rounds n p t raw processed data input min result saved ws d' :
    surroundings threads rounds n t order reads data -> given d n p t input ->
    maybe_process U script raw processed p = Ret data ->
    optimize_increasing U script threads reads order clock near below rounds n p t raw processed input min result saved ->
    (forall s, result = Some s -> writable ratio s) ->
    increasing_written ratio result saved = Ret ws -> during_writes d ws d' -> event d d'
| ev_convert U script threads ratio reads raw processed name tokens out text d' :
    1 <= threads -> d name = Some tokens ->
    (forall ts data samples s, read_token_set tokens = Ret ts ->
       maybe_process U script raw processed (ts_processing ts) = Ret data -> full_samples reads data = Ret samples ->
       par_result ts threads (full_size data) samples (Some (length raw)) s -> writable ratio s) ->
    converts U script threads ratio reads raw processed tokens out text ->
    during_write d out text d' -> event d d'
| ev_pretty renumber name text out d' :
    d name = Some text -> (exists ts, read_token_set text = Ret ts) ->
    (forall v, parse_json text = Some v -> floats_shown renumber v) -> pretty renumber text = Some out -> during_write d name out d' -> event d d'
| ev_remove name : event d (fun x => if String.eqb x name then None else d x).

Inductive history (d : dir) : dir -> Prop :=
| hi_start : history d d
| hi_event d1 d2 : history d d1 -> event d1 d2 -> history d d2.

(** Several commands at a time: the files a command that read its input in the directory [dr]
    may write, ... *)
Inductive may_write (dr : dir) : string -> bstr -> Prop :=
| mw_optimize U script threads ratio reads order clock rounds n p t raw processed data input m ws name text :
    surroundings threads rounds n t order reads data -> given dr n p t input ->
    maybe_process U script raw processed p = Ret data ->
    optimize_run U script threads reads order clock rounds n p t raw processed input m ->
    (forall s, returned m s -> writable ratio s) ->
    written ratio m = Ret ws -> In (name, text) ws -> may_write dr name text
| mw_increasing U script threads ratio reads order clock near below rounds n p t raw processed data input min result saved ws name text :
    surroundings threads rounds n t order reads data -> given dr n p t input ->
    maybe_process U script raw processed p = Ret data ->
    optimize_increasing U script threads reads order clock near below rounds n p t raw processed input min result saved ->
    (forall s, result = Some s -> writable ratio s) ->
    increasing_written ratio result saved = Ret ws -> In (name, text) ws -> may_write dr name text
| mw_convert U script threads ratio reads raw processed name tokens out text :
    1 <= threads -> dr name = Some tokens ->
    (forall ts data samples s, read_token_set tokens = Ret ts ->
       maybe_process U script raw processed (ts_processing ts) = Ret data -> full_samples reads data = Ret samples ->
       par_result ts threads (full_size data) samples (Some (length raw)) s -> writable ratio s) ->
    converts U script threads ratio reads raw processed tokens out text -> may_write dr out text
| mw_pretty renumber name text out :
    dr name = Some text -> (exists ts, read_token_set text = Ret ts) ->
    (forall v, parse_json text = Some v -> floats_shown renumber v) -> pretty renumber text = Some out -> may_write dr name out.

(** ... and what happens when they overlap: [past] lists the states of the directory so far; the
    next write may be one of a command that read its input in any of them. *)
Inductive overlapping (d0 : dir) : list dir -> dir -> Prop :=
| ov_start : overlapping d0 [d0] d0
| ov_write past d dr name text d' : overlapping d0 past d -> In dr past -> may_write dr name text ->
    during_write d name text d' -> overlapping d0 (d' :: past) d'
| ov_remove past d name : overlapping d0 past d ->
    overlapping d0 ((fun x => if String.eqb x name then None else d x) :: past) (fun x => if String.eqb x name then None else d x).

(** A directory without token sets: nothing in it loads. *)
Definition no_sets (d : dir) : Prop := forall name text ts, d name = Some text -> read_token_set text <> Ret ts.

(** ** The invariant *)
Definition sound_file (name : string) (text : bstr) : Prop := forall ts, read_token_set text = Ret ts ->
  name = file_name ts /\
  ((exists tk, tokenizer_new ts = Ret tk) -> good_start (ntokens ts) (ts_processing ts) (ts_type ts) (Some ts)).
Definition sound (d : dir) : Prop := forall name text, d name = Some text -> sound_file name text.

Definition text_of (ratio : nat -> nat -> bstr) (ts : tokenset) (text : bstr) : Prop :=
  set_text ts = Ret text \/ exists s, st_token_set s = ts /\ writable ratio s /\ stats_text ratio s = Ret text.

Lemma text_reads ratio ts ss text : shaped ts ss -> text_of ratio ts text -> read_token_set text = Ret (reloaded ts ss).
Proof.
  intros S [H|(s & <- & W & H)].
  - destruct (C22_round_trip_partial ts ss S) as ((j & Ej & Lj) & _). destruct (jwf_ts _ _ Ej) as (fs & -> & W & D & _).
    unfold set_text in H. rewrite Ej in H. cbn [bind] in H. apply ret_inj in H. subst text.
    unfold read_token_set. rewrite parse_show by (assumption || lia). exact Lj.
  - destruct (C56_files_read_back_partial ratio s ss S W) as (t1 & t2 & _ & E2 & _ & L).
    rewrite H in E2. apply ret_inj in E2. subst t2. exact L.
Qed.

Lemma text_cut ratio ts text k : text_of ratio ts text -> k < length text -> read_token_set (firstn k text) = Panic.
Proof.
  intros [H|(s & <- & W & H)] Hk.
  - apply (C56_cut_files_rejected ratio (stats_new ts None) text); [left; exact H|exact Hk].
  - apply (C56_cut_files_rejected ratio s text); [right; auto|exact Hk].
Qed.

Lemma good_le n n' p t ts : n <= n' -> good_start n p t (Some ts) -> good_start n' p t (Some ts).
Proof. intros H (sp & V & Hn). exists sp. split; [exact V|lia]. Qed.

Lemma own_file ratio n p t ts text k : good_start n p t (Some ts) -> text_of ratio ts text -> sound_file (file_name ts) (firstn k text).
Proof.
  intros (sp & V & Hn) T ts' E. destruct (vi_shaped _ _ _ _ V) as (ss & S).
  destruct (le_lt_dec (length text) k) as [Hk|Hk]; [|rewrite (text_cut _ _ _ _ T Hk) in E; discriminate].
  rewrite firstn_all2 in * by exact Hk. rewrite (text_reads _ _ _ _ S T) in E. apply ret_inj in E. subst ts'.
  split; [reflexivity|]. intros U.
  change (good_start (ntokens ts) (ts_processing ts) (ts_type ts) (Some (reloaded ts ss))).
  rewrite (vi_proc _ _ _ _ V), (vi_type _ _ _ _ V).
  apply reloaded_start; [exact S| |exists sp; split; [exact V|apply le_n]].
  pose proof (vi_type _ _ _ _ V) as Ty.
  assert (D : (t = Bytes \/ t = BytesHuff) \/ (t = Bits1 \/ t = Bits2 \/ t = Bits4)) by (clear; destruct t; auto).
  destruct D as [D|D]; [destruct D; auto|]. right; right. rewrite <- Ty in D.
  destruct (C22_round_trip_partial ts ss S) as ((j & Ej & Lj) & _).
  refine (proj1 (C23_bits_reload_usable_iff ts ss j _ S D _ Ej Lj) U).
  apply C01_tokenizer_exists_iff_usable, (vi_usable _ _ _ _ V).
Qed.

Definition content_dec (a b : option bstr) : {a = b} + {a <> b}.
Proof. repeat decide equality; apply Byte.byte_eq_dec. Defined.

Lemma writes_sound d ws d' : sound d -> during_writes d ws d' ->
  (forall name text, In (name, text) ws -> forall k, sound_file name (firstn k text)) -> sound d'.
Proof.
  intros Sd Hw H name text E. destruct (content_dec (d' name) (d name)) as [Eq|Ne].
  - apply Sd. rewrite <- Eq. exact E.
  - destruct (during_writes_changed _ _ _ _ Hw Ne) as (tx & k & Hi & Ek). rewrite E in Ek. injection Ek as ->. apply H. exact Hi.
Qed.

Lemma write_sound d name text d' : sound d -> during_write d name text d' -> (forall k, sound_file name (firstn k text)) -> sound d'.
Proof.
  intros Sd Hw H x tx E. destruct Hw as [|k Hk]; [apply Sd; exact E|]. unfold put_file in E.
  destruct (String.eqb x name) eqn:Ex; [|apply Sd; exact E]. apply String.eqb_eq in Ex. subst x. injection E as <-. apply H.
Qed.

(** ** optimize *)
Lemma loaded_range text ts : read_token_set text = Ret ts -> seqs_in_range ts.
Proof. intros R q i Hq Hi. exact (co_range _ (C60_loaded_file_consistent _ _ R) q i Hq Hi). Qed.

(** From a set the tokenizer rejects, no run gets past its first step. *)
Lemma stuck threads total (samples : list bstr) init order clock rounds n p t bad m :
  (forall tk, tokenizer_new bad <> Ret tk) -> seqs_in_range bad ->
  steps threads total samples init (mkMachine [] [] (optimize_tokenset order clock rounds n p t (Some bad))) m ->
  m_saved m = [] /\ forall s, ~ returned m s.
Proof.
  intros NU Rg Hst.
  assert (No : forall r a c', requested r = bad -> ~ call threads total samples init [] r a c').
  { intros r a c' Er Hc.
    assert (P : forall bad' s, ts_sort bad = Ret bad' -> par_result bad' threads total samples init s -> False).
    { intros bad' s Eb Hp. assert (X : exists tk, tokenizer_new bad = Ret tk); [|destruct X as (tk & X); exact (NU tk X)].
      apply (C08_sorting_keeps_usability _ _ Eb).
      destruct Hp as [s Hlt Hx|tk c s Hlt Htk0 _ _]; [|eauto].
      unfold tokenize_file_sync in Hx. apply bind_ret in Hx as (tk & Htk0 & _). eauto. }
    inversion Hc; subst; cbn [requested] in *; try discriminate; eapply P; eauto. }
  assert (Em : m = mkMachine [] [] (optimize_tokenset order clock rounds n p t (Some bad))).
  { remember (mkMachine [] [] (optimize_tokenset order clock rounds n p t (Some bad))) as m0 eqn:E0.
    induction Hst as [|m1 m2 m3 Hst IH Hstep]; [reflexivity|]. specialize (IH E0). subst m2. rewrite E0 in Hstep.
    unfold optimize_tokenset, optimize_impl in Hstep. cbn [initial_set pbind pret get_stats] in Hstep.
    inversion Hstep as [c sv r k a c' Hc|]; subst. destruct (No (NoPairs bad) a c' eq_refl Hc). }
  rewrite Em. split; [reflexivity|]. intros s Hret. unfold returned, optimize_tokenset, optimize_impl in Hret. cbn in Hret. discriminate.
Qed.

(** Either the starting set is fit, or the tokenizer rejects it. *)
Lemma given_cases d n p t input pre : sound d -> given d n p t input -> input_set input = Ret pre ->
  good_start n p t pre \/ exists bad, pre = Some bad /\ (forall tk, tokenizer_new bad <> Ret tk) /\ seqs_in_range bad.
Proof.
  intros Sd [->|(name & text & Ed & -> & K)] E.
  - left. cbn in E. apply ret_inj in E. subst pre. exact I.
  - cbn [input_set] in E. apply bind_ret in E as (ts & R & E). apply ret_inj in E. subst pre.
    destruct (tokenizer_new ts) as [tk| |] eqn:Etk.
    + left. destruct (K ts R) as (K1 & K2 & K3). destruct (Sd name text Ed ts R) as (_ & G). rewrite <- K1, <- K2.
      eapply good_le; [exact K3|]. apply G. eauto.
    + right. exists ts. split; [reflexivity|]. split; [intros tk; rewrite Etk; discriminate|eapply loaded_range; exact R].
    + right. exists ts. split; [reflexivity|]. split; [intros tk; rewrite Etk; discriminate|eapply loaded_range; exact R].
Qed.

Lemma setup_from threads rounds n p t order reads data input pre :
  surroundings threads rounds n t order reads data -> input_set input = Ret pre -> good_start n p t pre ->
  run_setup threads rounds n p t order reads data input.
Proof.
  intros (H1 & H2 & H3 & H4 & H5) E G. split; try assumption. intros ts E'. rewrite E in E'. apply ret_inj in E'. subst pre. exact G.
Qed.

Lemma no_writes d d' : during_writes d [] d' -> d' = d.
Proof.
  intros H. inversion H as [done rest E|done name text rest d1 E _]; subst.
  - destruct done; [reflexivity|discriminate].
  - destruct done; discriminate.
Qed.

Lemma optimize_sound d U script threads ratio reads order clock rounds n p t raw processed data input m ws :
  sound d -> surroundings threads rounds n t order reads data -> given d n p t input ->
  maybe_process U script raw processed p = Ret data ->
  optimize_run U script threads reads order clock rounds n p t raw processed input m ->
  (forall s, returned m s -> writable ratio s) ->
  written ratio m = Ret ws -> forall name text, In (name, text) ws -> forall k, sound_file name (firstn k text).
Proof.
  intros Sd Hs Hg Ed Hm Hw Ew.
  assert (X : exists pre, input_set input = Ret pre) by (destruct Hm; eauto). destruct X as (pre & Ei).
  destruct (given_cases _ _ _ _ _ _ Sd Hg Ei) as [G|(bad & -> & NU & Rg)].
  - pose proof (setup_from _ _ _ _ _ _ _ _ _ _ Hs Ei G) as Hset.
    destruct (run_facts _ _ _ _ _ _ _ _ _ _ _ _ _ _ _ Hset Ed Hm) as (pre' & samples & Ei' & Gp & Es & Hne & Hr & Ho).
    destruct Hs as (H1 & H2 & H3 & H4 & H5).
    destruct (C44_result_within_budget _ _ _ _ _ _ _ _ _ _ _ _ H1 Hne H2 H3 Gp Hr Ho) as (G1 & G2).
    intros name text Hi k.
    destruct (written_describes ratio m ws name text Ew) as (ts & -> & D).
    + intros ts Ht. apply (G1 ts Ht).
    + intros s Ht. apply (G2 s Ht).
    + exact Hi.
    + destruct D as [(Hin & Et)|(s & Hret & <- & Et)].
      * apply (own_file ratio n p t); [apply (G1 ts Hin)|left; exact Et].
      * apply (own_file ratio n p t); [apply (G2 s Hret)|right; exists s; auto].
  - destruct Hm as [data' pre' samples m E1 E2 E3 Hst]. rewrite Ei in E2. apply ret_inj in E2. subst pre'.
    destruct (stuck _ _ _ _ _ _ _ _ _ _ _ _ NU Rg Hst) as (Es & Hno).
    unfold CommandsModel.written in Ew. rewrite Es in Ew. cbn [mmap bind] in Ew.
    assert (ws = []) as ->.
    { destruct (m_prog m) as [[s| |]| |] eqn:Em; try (apply ret_inj in Ew; auto). destruct (Hno s Em). }
    intros name text [].
Qed.

(** ** optimize --min-data-size *)
Section Increasing.
Variables (threads : nat) (reads : nat -> nat).
Variables (order : smap nat -> list bstr -> list bstr) (clock : N -> nat -> bool).
Variables (near : stats -> stats -> bool) (below : N -> nat -> nat -> bool).
Variables (rounds n : nat) (p : processing) (t : token_type) (data : bstr) (init : option nat) (min : N) (pre : option tokenset).
Local Notation inc := (increasing threads reads order clock near below rounds n p t data init min pre).
Hypothesis Hs : surroundings threads rounds n t order reads data.
Hypothesis Hpre : good_start n p t pre.

Lemma round_facts size cur total samples m : good_start n p t cur -> sampler below data size = Ret (total, samples) ->
  steps threads total samples init (mkMachine [] [] (optimize_tokenset order (clock size) rounds n p t cur)) m ->
  (forall ts, In ts (m_saved m) -> good_start n p t (Some ts)) /\ (forall s, returned m s -> good_start n p t (Some (st_token_set s))).
Proof.
  intros Hg Es Hst. destruct Hs as (H1 & H2 & H3 & H4 & H5). destruct (sampler_total below data size) as (total' & samples' & Es' & Hne & Hl).
  rewrite Es in Es'. injection Es' as <- <-.
  destruct (C44_result_within_budget threads total samples init order (clock size) n p t cur rounds m H1 Hne H2 H3 Hg
    (bound_ok threads rounds n data H1 H4 _ Hl) Hst) as (G1 & G2).
  split; [intros ts Hi; apply (G1 ts Hi)|intros s Hi; apply (G2 s Hi)].
Qed.

Lemma increasing_facts x saved : inc x saved -> (forall ts, In ts saved -> good_start n p t (Some ts)) /\
  match x with
  | IRun _ cur => good_start n p t cur
  | IReturned f => good_start n p t (Some (st_token_set f))
  | _ => True
  end.
Proof.
  induction 1 as [|size cur saved total samples m s full f H (IH1 & IH2) Hlt Hc Es Hst Em Ef Pf].
  - split; [intros ts []|exact Hpre].
  - destruct (round_facts _ _ _ _ _ IH2 Es Hst) as (G1 & G2). specialize (G2 s Em).
    split; [intros ts Hi; apply in_app_iff in Hi as [Hi|Hi]; auto|].
    destruct (_ && _); [|exact G2]. destruct Hs as (H1 & _).
    assert (Rg : seqs_in_range (st_token_set s)) by (destruct G2 as (sp & V & _); eapply visited_range; exact V).
    destruct (par_facts _ _ _ _ _ _ Rg H1 Pf) as (_ & _ & E & _). rewrite E. exact G2.
Qed.

Lemma moment_facts result saved :
  increasing_moment threads reads order clock near below rounds n p t data init min pre result saved ->
  (forall ts, In ts saved -> good_start n p t (Some ts)) /\ (forall f, result = Some f -> good_start n p t (Some (st_token_set f))).
Proof.
  intros H. destruct H as [size cur saved H|size cur saved total samples m H Hlt Hc Es Hst|f saved H].
  - split; [apply (increasing_facts _ _ H)|discriminate].
  - split; [|discriminate]. destruct (increasing_facts _ _ H) as (G & Gc). intros ts Hi. apply in_app_iff in Hi as [Hi|Hi]; [auto|].
    apply (round_facts _ _ _ _ _ Gc Es Hst). exact Hi.
  - destruct (increasing_facts _ _ H) as (G & Gf). split; [exact G|]. intros f' [= <-]. exact Gf.
Qed.
End Increasing.

Lemma increasing_stuck threads reads order clock near below rounds n p t data init min bad result saved :
  (forall tk, tokenizer_new bad <> Ret tk) ->
  increasing_moment threads reads order clock near below rounds n p t data init min (Some bad) result saved ->
  result = None /\ saved = [].
Proof.
  intros NU H.
  assert (G : forall x sv, increasing threads reads order clock near below rounds n p t data init min (Some bad) x sv -> x = IRun min (Some bad) /\ sv = []).
  { induction 1 as [|size cur sv total samples m s full f H1 (IH1 & IH2) Hlt Hc Es Hst Em Ef Pf]; [auto|].
    injection IH1 as -> ->. destruct (Hc bad eq_refl) as (tk & E). destruct (NU tk E). }
  destruct H as [size cur sv H|size cur sv total samples m H Hlt Hc Es Hst|f sv H].
  - destruct (G _ _ H) as (_ & ->). auto.
  - destruct (G _ _ H) as (E & _). injection E as -> ->. destruct (Hc bad eq_refl) as (tk & E). destruct (NU tk E).
  - destruct (G _ _ H) as (E & _). discriminate.
Qed.

Lemma increasing_sound d U script threads ratio reads order clock near below rounds n p t raw processed data input min result saved ws :
  sound d -> surroundings threads rounds n t order reads data -> given d n p t input ->
  maybe_process U script raw processed p = Ret data ->
  optimize_increasing U script threads reads order clock near below rounds n p t raw processed input min result saved ->
  (forall s, result = Some s -> writable ratio s) ->
  increasing_written ratio result saved = Ret ws -> forall name text, In (name, text) ws -> forall k, sound_file name (firstn k text).
Proof.
  intros Sd Hs Hg Ed Hm Hw Ew. destruct Hm as [data' pre result saved E1 Ei Hm]. rewrite Ed in E1. apply ret_inj in E1. subst data'.
  destruct (given_cases _ _ _ _ _ _ Sd Hg Ei) as [G|(bad & -> & NU & Rg)].
  - destruct (moment_facts _ _ _ _ _ _ _ _ _ _ _ _ _ _ Hs G _ _ Hm) as (G1 & G2).
    unfold increasing_written in Ew. apply bind_ret in Ew as (sv & Esv & Ew). apply mmap_ret in Esv.
    assert (K : forall name text, In (name, text) sv -> forall k, sound_file name (firstn k text)).
    { intros name text Hi k. destruct (Forall2_in_r _ _ _ _ Esv Hi) as (ts & Ht & E). apply bind_ret in E as (tx & Et & E).
      apply ret_inj in E. injection E as <- ->. apply (own_file ratio n p t); [apply G1; exact Ht|left; exact Et]. }
    destruct result as [f|].
    + apply bind_ret in Ew as (tx & Et & Ew). apply ret_inj in Ew. subst ws. intros name text Hi.
      apply in_app_iff in Hi as [Hi|[Hi|[]]]; [apply K; exact Hi|]. injection Hi as <- <-. intros k.
      apply (own_file ratio n p t); [apply G2; reflexivity|right; exists f; auto].
    + apply ret_inj in Ew. subst ws. exact K.
  - destruct (increasing_stuck _ _ _ _ _ _ _ _ _ _ _ _ _ _ _ _ NU Hm) as (-> & ->). cbn in Ew. apply ret_inj in Ew. subst ws.
    intros name text [].
Qed.

(** ** convert-tokens *)
Lemma convert_sound d U script threads ratio reads raw processed name tokens out text :
  sound d -> 1 <= threads -> d name = Some tokens ->
  (forall ts data samples s, read_token_set tokens = Ret ts ->
     maybe_process U script raw processed (ts_processing ts) = Ret data -> full_samples reads data = Ret samples ->
     par_result ts threads (full_size data) samples (Some (length raw)) s -> writable ratio s) ->
  converts U script threads ratio reads raw processed tokens out text ->
  forall k, sound_file out (firstn k text).
Proof.
  intros Sd Ht Ed Hw Hc k. destruct Hc as [ts data samples s text E1 E2 E3 E4 E5].
  destruct (par_facts _ _ _ _ _ _ (loaded_range _ _ E1) Ht E4) as (Htk & _ & Es & _).
  destruct (Sd _ _ Ed _ E1) as (_ & G). specialize (G Htk).
  eapply own_file; [exact G|]. right. exists s. split; [exact Es|]. split; [|exact E5].
  eapply Hw; eassumption.
Qed.

(** ** pretty.py *)
Lemma loads_object v ts : ts_from_json v = Ret ts -> exists fs, v = JObj fs.
Proof. destruct v; try (cbn; discriminate). eauto. Qed.

Lemma pretty_sound d renumber name text out : sound d -> d name = Some text -> (exists ts, read_token_set text = Ret ts) ->
  (forall v, parse_json text = Some v -> floats_shown renumber v) ->
  pretty renumber text = Some out -> forall k, sound_file name (firstn k out).
Proof.
  intros Sd Ed (ts & R) Hn Hp k ts' E'.
  assert (X : ts' = ts); [|subst ts'; exact (Sd name text Ed ts R)].
  destruct (parse_json text) as [v|] eqn:E; [|unfold read_token_set in R; rewrite E in R; discriminate]. specialize (Hn v eq_refl).
  assert (O : exists fs, v = JObj fs) by (unfold read_token_set in R; rewrite E in R; eapply loads_object; exact R). destruct O as (fs & ->).
  destruct (C91_any_file_kept renumber text _ ts E Hn R) as (out1 & P1 & R1). rewrite Hp in P1. injection P1 as <-.
  destruct (pretty_read renumber text _ E Hn) as (out1 & P1 & P2 & t & Et & Ht). rewrite Hp in P1. injection P1 as <-.
  destruct (list_eq_dec Byte.byte_eq_dec (skipn k out) []) as [Z|Z].
  { pose proof (firstn_skipn k out) as F. rewrite Z, app_nil_r in F. rewrite F, R1 in E'. apply ret_inj in E'. auto. }
  destruct (list_eq_dec Byte.byte_eq_dec (skipn k out) [x0a]) as [Z1|Z1].
  { pose proof (firstn_skipn k out) as F. rewrite Z1 in F. rewrite Et in F at 2. apply app_inj_tail in F as (F & _).
    destruct (parse_json_wf _ _ P2) as (W & D). pose proof (parse_written _ _ [] W D Ht eq_refl) as Q. rewrite app_nil_r in Q.
    unfold read_token_set in E', R1. rewrite F, Q in E'. rewrite P2 in R1. rewrite R1 in E'. apply ret_inj in E'. auto. }
  exfalso. pose proof (C91_cut_files_rejected renumber text fs out E Hn Hp (firstn k out) (skipn k out) (eq_sym (firstn_skipn k out)) Z Z1) as Q.
  unfold read_token_set in E'. rewrite Q in E'. discriminate.
Qed.

Lemma event_sound d d' : sound d -> event d d' -> sound d'.
Proof.
  intros Sd H. destruct H.
  - eapply writes_sound; [exact Sd|eassumption|]. eapply optimize_sound; eassumption.
  - eapply writes_sound; [exact Sd|eassumption|]. eapply increasing_sound; eassumption.
  - eapply write_sound; [exact Sd|eassumption|]. eapply convert_sound; eassumption.
  - eapply write_sound; [exact Sd|eassumption|]. eapply pretty_sound; eassumption.
  - intros x tx E. cbn beta in E. destruct (String.eqb x name); [discriminate|]. apply Sd. exact E.
Qed.

Lemma history_sound d0 d : sound d0 -> history d0 d -> sound d.
Proof. intros S H. induction H as [|d1 d2 H IH He]; [exact S|]. eapply event_sound; eassumption. Qed.

Lemma may_write_sound d name text : sound d -> may_write d name text -> forall k, sound_file name (firstn k text).
Proof.
  intros Sd H. destruct H.
  - eapply optimize_sound; eassumption.
  - eapply increasing_sound; eassumption.
  - eapply convert_sound; eassumption.
  - eapply pretty_sound; eassumption.
Qed.

Lemma overlapping_sound d0 past d : sound d0 -> overlapping d0 past d -> sound d /\ forall x, In x past -> sound x.
Proof.
  intros S H. induction H as [|past d dr name text d' H (IH1 & IH2) Hr Hw Hd|past d name H (IH1 & IH2)].
  - split; [exact S|]. intros x [<-|[]]. exact S.
  - assert (S' : sound d') by (eapply write_sound; [exact IH1|exact Hd|eapply may_write_sound; [apply IH2, Hr|exact Hw]]).
    split; [exact S'|]. intros x [<-|Hx]; auto.
  - assert (S' : sound (fun x => if String.eqb x name then None else d x)).
    { intros x tx E. cbn beta in E. destruct (String.eqb x name); [discriminate|]. apply IH1. exact E. }
    split; [exact S'|]. intros x [<-|Hx]; auto.
Qed.

Lemma no_sets_sound d : no_sets d -> sound d.
Proof. intros H name text E ts R. destruct (H name text ts E R). Qed.

(** ** C93 *)

(** Whatever was run, in whatever order, and wherever it was interrupted: a file that loads is the
    token set its name says. *)
Theorem C93_files_match_their_names : forall d0 d, no_sets d0 -> history d0 d ->
  forall name text ts, d name = Some text -> read_token_set text = Ret ts -> name = file_name ts.
Proof. intros d0 d H0 H name text ts E R. apply (history_sound _ _ (no_sets_sound _ H0) H name text E ts R). Qed.

(** A file to start from: a run with at least as many tokens of the same kind returns a result in
    the budget, none panics, and (for Huffman sets: unless there is room for more bytes of their own) the
    result does not need more tokens than the file. *)
Definition restarts (text : bstr) (ts : tokenset) : Prop :=
  forall U script threads reads order clock rounds n raw processed data samples,
  surroundings threads rounds n (ts_type ts) order reads data -> ntokens ts <= n ->
  maybe_process U script raw processed (ts_processing ts) = Ret data -> optimize_samples reads raw data = Ret samples ->
  let runs := optimize_run U script threads reads order clock rounds n (ts_processing ts) (ts_type ts) raw processed (Some text) in
  (exists m s, runs m /\ returned m s) /\
  (forall m, runs m -> ~ panicked m /\
     forall s, returned m s -> good_result n (ts_processing ts) (ts_type ts) (st_token_set s) /\
       (ts_type ts <> BytesHuff \/ no_room n ts -> forall N, min_total ts samples N -> total_tokens s <= N)).

Lemma sound_restarts d name text ts : sound d -> d name = Some text -> read_token_set text = Ret ts -> (exists tk, tokenizer_new ts = Ret tk) ->
  restarts text ts.
Proof.
  intros Sd E R U0 U script threads reads order clock rounds n raw processed data samples Hs Hn Ed Es. cbv zeta.
  destruct (Sd name text E ts R) as (_ & G). specialize (G U0). apply (good_le _ n) in G; [|exact Hn].
  assert (I : input_set (Some text) = Ret (Some ts)) by (unfold input_set; rewrite R; reflexivity).
  pose proof (setup_from _ _ _ _ _ _ _ _ _ _ Hs I G) as Hset. destruct Hs as (H1 & H2 & H3 & H4 & H5).
  destruct (optimize_samples_ok _ _ _ _ H5 Es) as (Hne & Hl). pose proof (bound_ok threads rounds n data H1 H4 _ Hl) as Hr.
  split.
  - destruct (C43_optimization_never_panics_partial threads (full_size data) samples (Some (length raw)) order clock n _ _ _ rounds H1 Hne H2 H3 G Hr) as ((m' & s' & M & Rt) & _).
    exists m', s'. split; [|exact Rt]. econstructor; eauto.
  - intros m Hm. destruct (run_facts _ _ _ _ _ _ _ _ _ _ _ _ _ _ _ Hset Ed Hm) as (pre & samples' & Ei & Gp & Es' & _ & _ & Ho).
    rewrite I in Ei. apply ret_inj in Ei. subst pre. rewrite Es in Es'. apply ret_inj in Es'. subst samples'.
    split; [apply (proj2 (C43_optimization_never_panics_partial threads (full_size data) samples (Some (length raw)) order clock n _ _ _ rounds H1 Hne H2 H3 G Hr) m Ho)|].
    intros s Hret. destruct (C44_result_within_budget _ _ _ _ _ _ _ _ _ _ _ _ H1 Hne H2 H3 G Hr Ho) as (_ & G2). destruct (G2 s Hret) as (A & _ & MT).
    split; [exact A|]. intros Rm N HN.
    assert (Rm' : ts_type ts <> BytesHuff \/ Some ts = None \/ no_room n ts) by (destruct Rm; auto).
    destruct (C45_never_longer threads (full_size data) samples (Some (length raw)) order clock n _ _ _ rounds ts m H1 Hne H2 H3 G Hr eq_refl Rm' Ho) as (_ & K & _).
    pose proof (Forall_inv (K s Hret)) as Hx. exact (Hx N (total_tokens s) HN MT).
Qed.

(** And every such file the tokenizer accepts can be started from. *)
Theorem C93_any_file_restarts : forall d0 d, no_sets d0 -> history d0 d ->
  forall name text ts, d name = Some text -> read_token_set text = Ret ts -> (exists tk, tokenizer_new ts = Ret tk) -> restarts text ts.
Proof. intros d0 d H0 H name text ts. apply sound_restarts. exact (history_sound _ _ (no_sets_sound _ H0) H). Qed.

(** The same if commands run at the same time. *)
Theorem C93_overlapping_commands : forall d0 past d, no_sets d0 -> overlapping d0 past d ->
  forall name text ts, d name = Some text -> read_token_set text = Ret ts ->
  name = file_name ts /\ ((exists tk, tokenizer_new ts = Ret tk) -> restarts text ts).
Proof.
  intros d0 past d H0 H name text ts E R. pose proof (proj1 (overlapping_sound _ _ _ (no_sets_sound _ H0) H)) as Sd.
  split; [apply (Sd name text E ts R)|eapply sound_restarts; eassumption].
Qed.

Lemma put_files_in ws : forall d x t, put_files d ws x = Some t -> d x = Some t \/ In (x, t) ws.
Proof.
  induction ws as [|(n & u) ws IH]; intros d x t H; [auto|]. cbn [put_files fold_left] in H. apply IH in H as [H|H]; [|right; right; exact H].
  unfold put_file in H. cbn [fst snd] in H. destruct (String.eqb x n) eqn:E; [|auto]. apply String.eqb_eq in E. subst x. injection H as ->. right; left; reflexivity.
Qed.

(** ** The hypotheses are met: a run in an empty directory, to its end *)
Lemma C93_hypotheses_met : exists d past d' name text ts, no_sets (fun _ => None) /\ history (fun _ => None) d /\
  overlapping (fun _ => None) past d' /\ length past = 2 /\ d' name = Some text /\ d name = Some text /\ read_token_set text = Ret ts /\ (exists tk, tokenizer_new ts = Ret tk) /\ 257 <= ntokens ts.
Proof.
  destruct C59_hypotheses_met as (U & script & reads & order & rounds & m & s & ws & Hs & Ed & Hm & Hret & Ew & Hn).
  set (ratio := fun _ _ : nat => lit "0.5") in *.
  destruct (run_facts _ _ _ _ _ _ _ _ _ _ _ _ _ _ _ Hs Ed Hm) as (pre & samples & Ei & Gp & Es & Hne & Hr & Ho).
  destruct (C59_only_requested_file_partial U script 4 ratio reads order _ rounds 300 Raw Bytes [x61; x62] None None [x61; x62] m Hs Ed Hm) as (ws' & Ew' & _ & Hfile).
  rewrite Ew in Ew'. apply ret_inj in Ew'. subst ws'.
  pose proof (rs_threads _ _ _ _ _ _ _ _ _ Hs) as Ht. pose proof (rs_order _ _ _ _ _ _ _ _ _ Hs) as Hsh. pose proof (rs_target _ _ _ _ _ _ _ _ _ Hs) as Hsup.
  destruct (C44_result_within_budget _ _ _ _ _ _ _ _ _ _ _ _ Ht Hne Hsh Hsup Gp Hr Ho) as (_ & G2).
  destruct (optimize_samples_ok _ _ _ _ (rs_reads _ _ _ _ _ _ _ _ _ Hs) Es) as (_ & Hl). cbn [length] in Hl.
  assert (W : forall s, returned m s -> writable ratio s).
  { intros s' Hret'. destruct (G2 s' Hret') as ((_ & (ss & S) & Hb & _) & (sp & V & _) & Hmin).
    destruct (returned_outcome _ _ _ _ _ _ _ _ _ _ _ _ _ Ht Hsh Hsup Gp Hr Ho Hret') as (E1 & _).
    destruct (search_answer _ _ _ _ _ _ _ _ _ _ E1) as (ts & s0 & E0 & E2).
    assert (Ets : st_token_set s' = ts) by (rewrite E2; cbn [without_pairs st_token_set]; eapply sync_set, E0).
    destruct (sync_facts ts samples (Some (length [x61; x62])) s0) as (_ & F2 & F3 & _); [rewrite <- Ets; exact (sh_range _ _ S)|exact E0|].
    assert (K2 : forall k, k <= 2000 -> (N.of_nat k < 2 ^ 64)%N).
    { intros k Hk. apply N.lt_trans with 2001%N; [lia|reflexivity]. }
    apply total_for_min in Hmin. pose proof (visited_total_bound _ _ _ _ _ _ V Hmin) as B.
    split.
    - intros a b. reflexivity.
    - apply K2. clear - Hb. lia.
    - rewrite E2. change (scanned_bytes (without_pairs s0)) with (scanned_bytes s0). rewrite F3. apply K2. clear - Hl. lia.
    - apply K2. clear - Hl B. lia.
    - intros k Ek. rewrite E2 in Ek. change (initial_size (without_pairs s0)) with (initial_size s0) in Ek. rewrite F2 in Ek. injection Ek as <-. reflexivity. }
  destruct (Hfile (fun _ => None) s Hret) as (text & Et & Ep).
  destruct (G2 s Hret) as ((Utk & (ss & S) & Hb & Ty & _) & Gs & _).
  exists (put_files (fun _ => None) ws), [put_file (fun _ => None) (file_name (st_token_set s)) text; fun _ => None],
    (put_file (fun _ => None) (file_name (st_token_set s)) text), (file_name (st_token_set s)), text, (reloaded (st_token_set s) ss).
  split; [intros name tx ts E; discriminate|]. split.
  { eapply hi_event; [apply hi_start|]. eapply ev_optimize with (input := None); [|left; reflexivity|exact Ed|exact Hm|exact W|exact Ew|].
    - destruct Hs as [H1 H2 H3 H4 H5 H6]. exact (conj H1 (conj H2 (conj H3 (conj H4 H5)))).
    - apply dws_between with (rest := []). rewrite app_nil_r. reflexivity. }
  split.
  { eapply ov_write; [apply ov_start|left; reflexivity| |].
    - eapply mw_optimize with (input := None); [|left; reflexivity|exact Ed|exact Hm|exact W|exact Ew|].
      + destruct Hs as [H1 H2 H3 H4 H5 H6]. exact (conj H1 (conj H2 (conj H3 (conj H4 H5)))).
      + destruct (put_files_in _ _ _ _ Ep) as [X|X]; [discriminate|exact X].
    - rewrite <- (firstn_all text) at 2. apply dw_part. apply le_n. }
  split; [reflexivity|]. split; [unfold put_file; rewrite String.eqb_refl; reflexivity|].
  split; [exact Ep|]. split; [apply (text_reads ratio (st_token_set s) ss text S); right; exists s; auto|]. split; [|exact Hn].
  assert (Gr : good_start 300 Raw Bytes (Some (reloaded (st_token_set s) ss))) by (apply reloaded_start; [exact S|auto|exact Gs]).
  destruct Gr as (sp & V & _). apply C01_tokenizer_exists_iff_usable, (vi_usable _ _ _ _ V).
Qed.
