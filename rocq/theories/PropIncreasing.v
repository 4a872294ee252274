(** * Property C70: the files of optimize --min-data-size. *)
From Coq Require Import String ZArith.
From Verif Require Import Base BaseLemmas Utf8 TokenSetModel TokenizerModel TokSpec SortLemmas
  TokenizerProof1 TokenSetProof TokenizerTheory TokenSetProof2 PropTokenSet PropTokenizer StatsAlgebra BatchModel PropBatch
  JsonModel JsonText JsonProof PropJson Shaped SamplerModel PropSampler ProcessingModel CacheModel PropCache OptBytesModel OptimizeModel
  OptimizeProof1 OptimizeProof2 OptimizeProof5 OptimizeProof6 OptimizeProof7
  OptimizeProof3 OptimizeProof4 OptimizeProof8 PropOptimize PropDeterminism PropFixpoint MainModel PropMain CommandsModel PropFiles PropCommands PropOptFiles.
Local Open Scope list_scope.
Local Notation length := List.length.

(** ** The loop with its saves is the loop of MainModel *)
Section Link.
Variables (threads : nat) (reads : nat -> nat).
Variables (order : smap nat -> list bstr -> list bstr) (clock : N -> nat -> bool).
Variables (near : stats -> stats -> bool) (below : N -> nat -> nat -> bool).
Variables (rounds n : nat) (p : processing) (t : token_type) (data : bstr) (init : option nat) (min : N) (pre : option tokenset).
Local Notation inc := (increasing threads reads order clock near below rounds n p t data init min pre).
Local Notation reach := (isteps threads rounds n p t init order clock near below reads data).

Lemma increasing_reach x saved : inc x saved -> reach (IRun min pre) x.
Proof.
  induction 1 as [|size cur saved total samples m s full f H IH Hs Hc Es Hst Em Ef Pf]; [constructor|].
  econstructor; [exact IH|]. eapply is_round; eauto.
Qed.

Section Good.
Hypothesis Hthreads : 1 <= threads.
Hypothesis Hord : shuffles order.
Hypothesis Hsup : supported t n.
Hypothesis Hrounds : let b := 258 * (3 * length data) in S (n * S b + b) <= rounds.
Hypothesis Hpre : good_start n p t pre.

Lemma head_good size cur saved : inc (IRun size cur) saved -> good_start n p t cur.
Proof.
  intros H. apply increasing_reach in H.
  exact (proj1 (reach_good threads rounds n p t init order clock near below reads data Hthreads Hord Hsup Hrounds min pre _ Hpre H)).
Qed.

Lemma round_saves size cur total samples m : good_start n p t cur -> sampler below data size = Ret (total, samples) ->
  steps threads total samples init (mkMachine [] [] (optimize_tokenset order (clock size) rounds n p t cur)) m ->
  forall ts, In ts (m_saved m) -> good_result n p t ts.
Proof.
  intros Hg Es Hs ts Hi. destruct (sampler_total below data size) as (total' & samples' & Es' & Hne & Hl).
  rewrite Es in Es'. injection Es' as <- <-.
  apply (C44_result_within_budget threads total samples init order (clock size) n p t cur rounds m Hthreads Hne Hord Hsup Hg
    (bound_ok threads rounds n data Hthreads Hrounds _ Hl) Hs). exact Hi.
Qed.

Lemma saved_good x saved : inc x saved -> forall ts, In ts saved -> good_result n p t ts.
Proof.
  induction 1 as [|size cur saved total samples m s full f H IH Hs Hc Es Hst Em Ef Pf]; [intros ts []|].
  intros ts Hi. apply in_app_iff in Hi as [Hi|Hi]; [apply IH; exact Hi|].
  eapply round_saves; [eapply head_good; exact H|exact Es|exact Hst|exact Hi].
Qed.

(** Conversely every head of the loop, and every result, has its saves. *)
Lemma reach_increasing x : reach (IRun min pre) x -> x <> IPanicked -> exists saved, inc x saved.
Proof.
  intros H. remember (IRun min pre) as x0 eqn:E0. induction H as [x|x y z H IH St]; intros Hz; subst.
  - exists []. constructor.
  - specialize (IH eq_refl). inversion St as [size cur Hs|size ts Hs Hp|size cur total samples m Hs Es Hst Em|size cur total samples m s Hs Es Hst Em Ef|size cur total samples m s full f Hs Es Hst Em Ef Pf]; subst; try congruence.
    destruct IH as (saved & I); [discriminate|]. exists (saved ++ m_saved m). eapply inc_round; eauto.
    intros ts ->. apply head_good in I. apply (start_usable n p t ts I).
Qed.

Lemma result_good f saved : inc (IReturned f) saved ->
  good_result n p t (st_token_set f) /\ good_final threads rounds n p t init order clock near below reads data f.
Proof.
  intros H. apply increasing_reach in H.
  pose proof (reach_good threads rounds n p t init order clock near below reads data Hthreads Hord Hsup Hrounds min pre _ Hpre H) as G.
  cbn in G. split; [|exact G]. destruct G as (size & cur & total & samples & m & s & full & _ & _ & _ & _ & G & _ & _ & E).
  rewrite (sync_set _ _ _ _ E). exact G.
Qed.

Lemma moment_good result saved :
  increasing_moment threads reads order clock near below rounds n p t data init min pre result saved ->
  (forall ts, In ts saved -> good_result n p t ts) /\
  (forall f, result = Some f -> good_result n p t (st_token_set f) /\ good_final threads rounds n p t init order clock near below reads data f).
Proof.
  intros H. destruct H as [size cur saved H|size cur saved total samples m H Hs Hc Es Hst|f saved H].
  - split; [eapply saved_good; exact H|discriminate].
  - split; [|discriminate]. intros ts Hi. apply in_app_iff in Hi as [Hi|Hi]; [eapply saved_good; eauto|].
    eapply round_saves; [eapply head_good; exact H|exact Es|exact Hst|exact Hi].
  - split; [eapply saved_good; exact H|]. intros f' [= <-]. eapply result_good; exact H.
Qed.
End Good.

(** ** A search that never saves *)
Inductive quiet {A} : prog A -> Prop :=
| quiet_done o : quiet (PDone o)
| quiet_ask r k : (forall s, quiet (k s)) -> quiet (PAsk r k).

Lemma quiet_bind {A B} (m : prog A) (f : A -> prog B) : quiet m -> (forall a, quiet (f a)) -> quiet (pbind m f).
Proof.
  intros Hm Hf. induction Hm as [o|r k Hk IH]; cbn [pbind].
  - destruct o; [apply Hf|constructor..].
  - constructor. exact IH.
Qed.
Lemma quiet_ret {A} (a : A) : quiet (pret a). Proof. constructor. Qed.
Lemma quiet_stats ts : quiet (get_stats ts). Proof. constructor. intros s. constructor. Qed.
Lemma quiet_pairs ts : quiet (get_stats_with_pairs ts). Proof. constructor. intros s. constructor. Qed.

Ltac quiet_step := first [apply quiet_ret|apply quiet_stats|apply quiet_pairs|apply quiet_done|
  apply quiet_bind; [|intros ?]|
  match goal with |- quiet (if ?c then _ else _) => destruct c | |- quiet (match ?x with _ => _ end) => destruct x end].

Lemma quiet_add bo ts : quiet (opt_add_token bo ts).
Proof. unfold opt_add_token. repeat quiet_step. Qed.
Lemma quiet_trade bo ts k s : quiet (trade_byte bo ts k s).
Proof. unfold trade_byte. repeat quiet_step. Qed.
Lemma quiet_replace bo ts k s l : forall rc, quiet (replace_loop bo ts k s l rc).
Proof.
  induction l as [|x l IH]; intros rc; cbn [replace_loop]; [constructor|]. cbv zeta.
  repeat first [apply quiet_add|apply IH|quiet_step].
Qed.
Lemma quiet_step_ok bo o ts k rc : quiet (optimization_step bo o ts k rc).
Proof.
  unfold optimization_step, remove_add_token. repeat first [apply quiet_add|apply quiet_trade|apply quiet_replace|quiet_step].
Qed.
Lemma quiet_loop bo o fuel : forall round ts k rc, quiet (optimize_loop bo o (fun _ => false) fuel round ts k rc).
Proof.
  induction fuel as [|fuel IH]; intros round ts k rc; cbn [optimize_loop]; [constructor|].
  apply quiet_bind; [apply quiet_step_ok|]. intros ([new|] & rc'); [apply IH|constructor].
Qed.
Lemma quiet_search o fuel k pr ty start : quiet (optimize_tokenset o (fun _ => false) fuel k pr ty start).
Proof.
  unfold optimize_tokenset, initial_set, optimize_impl. repeat first [apply quiet_loop|quiet_step].
Qed.

Lemma quiet_run {A} total samples (m m' : machine A) : steps threads total samples init m m' ->
  quiet (m_prog m) -> quiet (m_prog m') /\ m_saved m' = m_saved m.
Proof.
  induction 1 as [m|m1 m2 m3 H IH St]; intros Q; [auto|]. destruct (IH Q) as (Q2 & E). rewrite <- E. clear IH Q E H.
  destruct St as [c sv r k a c' Hc|c sv ts k]; cbn [m_prog m_saved] in *; inversion Q2; subst; auto.
Qed.
End Link.

(** ** C70 *)

(** At any moment of a supported run, every file that differs from what it was is named
    after a set within the budget, of the requested type and processing, and holds
    the text of this set or a beginning of it; if the run ends normally the file of its result is
    complete, and the result is as described in C46. *)
Theorem C70_files_with_increasing_data_partial :
  forall U script threads ratio reads order clock near below rounds n p t raw processed input min data result saved,
  run_setup threads rounds n p t order reads data input -> maybe_process U script raw processed p = Ret data ->
  optimize_increasing U script threads reads order clock near below rounds n p t raw processed input min result saved ->
  exists ws, increasing_written ratio result saved = Ret ws /\
  (forall d d' name, during_writes d ws d' -> d' name <> d name ->
     exists ts text k, good_result n p t ts /\ name = file_name ts /\ d' name = Some (firstn k text) /\
       (In ts saved /\ set_text ts = Ret text \/ exists f, result = Some f /\ st_token_set f = ts /\ stats_text ratio f = Ret text)) /\
  (forall d f, result = Some f ->
     good_final threads rounds n p t (Some (length raw)) order clock near below reads data f /\
     exists text, stats_text ratio f = Ret text /\ put_files d ws (file_name (st_token_set f)) = Some text).
Proof.
  intros U script threads ratio reads order clock near below rounds n p t raw processed input min data result saved
    [H1 H2 H3 H4 H5 H6] Ed H. destruct H as [data' pre result saved E1 E2 Hm].
  rewrite Ed in E1. apply ret_inj in E1. subst data'.
  assert (Gp : good_start n p t pre) by (destruct pre as [ts|]; [apply H6; exact E2|exact I]).
  destruct (moment_good _ _ _ _ _ _ _ _ _ _ _ _ _ _ H1 H2 H3 H4 Gp _ _ Hm) as (G1 & G2).
  destruct (saved_texts saved) as (ws & Ew & F); [intros ts Hi; apply (G1 ts Hi)|].
  unfold increasing_written. rewrite Ew. cbn [bind].
  assert (K : forall name text, In (name, text) ws -> exists ts, In ts saved /\ name = file_name ts /\ set_text ts = Ret text).
  { intros name text Hi. destruct (Forall2_in_r _ _ _ _ F Hi) as (ts & Ht & (En & Et)). exists ts. auto. }
  destruct result as [f|].
  - destruct (G2 f eq_refl) as (Gf & Gfin). destruct Gf as (Gt & (ss & S) & Grest). destruct (stats_text_total ratio f ss S) as (text & Et). rewrite Et. cbn [bind].
    eexists. split; [reflexivity|]. split.
    + intros d d' name Hw Hn. destruct (during_writes_changed _ _ _ _ Hw Hn) as (tx & k & Hi & Ek).
      apply in_app_iff in Hi as [Hi|[Hi|[]]].
      * destruct (K _ _ Hi) as (ts & Hin & En & Ex). exists ts, tx, k. split; [apply G1; exact Hin|]. split; [exact En|]. split; [exact Ek|]. left. auto.
      * injection Hi as <- <-. exists (st_token_set f), text, k. split; [split; [exact Gt|]; split; [eauto|exact Grest]|]. split; [reflexivity|]. split; [exact Ek|]. right. eauto.
    + intros d f' [= <-]. split; [exact Gfin|]. exists text. split; [exact Et|]. rewrite put_files_app. cbn [put_files]. unfold put_file. rewrite String.eqb_refl. reflexivity.
  - eexists. split; [reflexivity|]. split; [|discriminate].
    intros d d' name Hw Hn. destruct (during_writes_changed _ _ _ _ Hw Hn) as (tx & k & Hi & Ek).
    destruct (K _ _ Hi) as (ts & Hin & En & Ex). exists ts, tx, k. split; [apply G1; exact Hin|]. split; [exact En|]. split; [exact Ek|]. left. auto.
Qed.

(** False: with data of at most 2^24 + 1 bytes and no save times the run panics in the end,
    and at no moment anything has been written. *)
Theorem C70_files_with_increasing_data_refuted :
  forall U script threads ratio reads order near below rounds n p t raw processed input min data pre,
  run_setup threads rounds n p t order reads data input -> maybe_process U script raw processed p = Ret data ->
  input_set input = Ret pre -> (exists full, full_samples reads data = Ret full) ->
  (full_size data <= 16777217)%N -> (0 < min)%N ->
  isteps threads rounds n p t (Some (length raw)) order (fun _ _ => false) near below reads data (IRun min pre) IPanicked /\
  forall result saved,
    optimize_increasing U script threads reads order (fun _ _ => false) near below rounds n p t raw processed input min result saved ->
    exists ws, increasing_written ratio result saved = Ret ws /\ forall d d', during_writes d ws d' -> d' = d.
Proof.
  intros U script threads ratio reads order near below rounds n p t raw processed input min data pre
    [H1 H2 H3 H4 H5 H6] Ed Ei (full & Ef) Hd Hm.
  assert (Gp : good_start n p t pre) by (destruct pre as [ts|]; [apply H6; exact Ei|exact I]).
  assert (Hne : ~ In [] full).
  { unfold full_samples in Ef. destruct (C28_file_read_exactly_once reads data (N.to_nat large) (S (length data))) as [Hp|(l & El & _ & Hne)].
    - unfold large; lia.
    - exact H5.
    - lia.
    - congruence.
    - rewrite Ef in El. apply ret_inj in El. subst l. exact Hne. }
  split.
  { eapply (proj2 (C46_increasing_data_returns_refuted _ _ _ _ _ _ _ _ _ _ _ _ _ _ Hd)); [|exact Hm].
    split; try assumption. exists full. auto. }
  intros result saved H. destruct H as [data' pre' result saved E1 E2 HM].
  rewrite Ed in E1. apply ret_inj in E1. subst data'. rewrite Ei in E2. apply ret_inj in E2. subst pre'.
  assert (Q : forall x l, increasing threads reads order (fun _ _ => false) near below rounds n p t data (Some (length raw)) min pre x l -> l = []).
  { induction 1 as [|size cur sv total samples m s full' f H IH Hs Hc Es Hst Em Ef' Pf]; [reflexivity|]. subst sv.
    destruct (quiet_run _ _ _ _ _ _ Hst (quiet_search _ _ _ _ _ _)) as (_ & E). cbn [m_saved] in E. rewrite E. reflexivity. }
  assert (result = None /\ saved = []) as (-> & ->).
  { destruct HM as [size cur saved H|size cur saved total samples m H Hs Hc Es Hst|f saved H].
    - split; [reflexivity|]. eapply Q; exact H.
    - split; [reflexivity|]. rewrite (Q _ _ H). destruct (quiet_run _ _ _ _ _ _ Hst (quiet_search _ _ _ _ _ _)) as (_ & E). cbn [m_saved] in E. rewrite E. reflexivity.
    - exfalso. apply increasing_reach in H. revert H. apply small_files_never_return. exact Hd. }
  exists []. split; [reflexivity|]. intros d d' Hw. destruct Hw as [done rest E|done name text rest d' E _].
  - destruct done; [reflexivity|discriminate].
  - destruct done; discriminate.
Qed.

(** The hypotheses are met for every ASCII file; with more than 2^24 + 1 bytes there are
    runs that end with a result. *)
Example C70_hypotheses_met : forall file, Forall (fun b => b2n b < 128) file ->
  exists reads rounds full, run_setup 4 rounds 300 Raw Bytes (fun _ l => l) reads file None /\
    maybe_process no_unicode [] file None Raw = Ret file /\ input_set None = Ret None /\
    full_samples reads file = Ret full /\
    ((16777217 < full_size file)%N -> forall clock below, exists f saved,
       optimize_increasing no_unicode [] 4 reads (fun _ l => l) clock (fun _ _ => true) below rounds 300 Raw Bytes file None None
         16777217 (Some f) saved).
Proof.
  intros file Ha. exists (fun pos => Nat.min (N.to_nat large) (length file - pos)).
  destruct (C46_hypotheses_met file Ha) as (_ & _ & _).
  exists (let b := 258 * (3 * length file) in S (300 * S b + b)).
  set (reads := fun pos => Nat.min (N.to_nat large) (length file - pos)).
  set (rounds := let b := 258 * (3 * length file) in S (300 * S b + b)).
  assert (Hr : let b := 258 * (3 * length file) in S (300 * S b + b) <= rounds) by apply le_n. clearbody rounds.
  assert (R : forall pos, read_ok file (N.to_nat large) pos (reads pos)) by (intros pos; split; [apply le_n|auto]).
  assert (Sup : supported Bytes 300) by (split; [apply Nat.leb_le; reflexivity|exact I]).
  assert (Hsh : shuffles (fun _ l => l)) by (intros m l; reflexivity).
  destruct (C28_ascii_file reads file (N.to_nat large) (S (length file)) Ha) as (full & E & _ & H); [unfold large; lia|exact R|lia|].
  exists full. split; [split; try assumption; [repeat constructor|intros ts Hx; discriminate]|].
  split; [reflexivity|]. split; [reflexivity|]. split; [exact E|]. intros Hbig clock below.
  assert (US : usable_setup 4 rounds 300 Raw Bytes (fun _ l => l) reads file None).
  { split; try assumption; [repeat constructor|exact I|]. exists full. auto. }
  destruct (C46_results_exist 4 rounds 300 Raw Bytes (Some (length file)) (fun _ l => l) clock below reads file 16777217 None US) as (f & Hf); [lia|].
  destruct US as [U1 U2 U3 U4 U5 _].
  destruct (reach_increasing 4 reads (fun _ l => l) clock (fun _ _ => true) below rounds 300 Raw Bytes file (Some (length file)) 16777217 None U1 U2 U3 U4 U5 _ Hf) as (saved & I); [discriminate|].
  exists f, saved. econstructor; [reflexivity|reflexivity|]. apply im_end. exact I.
Qed.
