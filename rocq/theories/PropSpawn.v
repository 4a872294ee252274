(** * Property C107: starting the worker threads one by one. *)
From Verif Require Import Base BaseLemmas TokenSetModel TokenizerModel TokSpec TokenizerProof2 StatsAlgebra BatchModel BatchProof PropTokenizer PropBatch PropThreads SpawnModel.

Section Proofs.
Context (ts : tokenset) (tk : tokenizer) (init : option nat) (fails : bool) (n : nat) (samples : list bstr) (os : nat -> bool).
Local Notation fresh := (WIdle (stats_new ts None) []).
Local Notation first := (WHold (stats_new ts None) []).

(** while workers are being started: all wait, at most one of them holds the lock *)
Definition early (ws : list worker) : Prop :=
  ws = repeat fresh (length ws) \/ exists i, i < length ws /\ ws = upd i (fun _ => first) (repeat fresh (length ws)).

Lemma repeat_snoc {A} (a : A) k : repeat a k ++ [a] = repeat a (S k).
Proof. induction k; cbn; [reflexivity|]. f_equal. exact IHk. Qed.

Lemma upd_app {A} (f : A -> A) : forall l i r, i < length l -> upd i f (l ++ r) = upd i f l ++ r.
Proof. induction l as [|a l IH]; intros [|i] r H; cbn in *; try lia; [reflexivity|]. f_equal. apply IH. lia. Qed.

Lemma early_snoc ws : early ws -> early (ws ++ [fresh]).
Proof.
  intros [E|(i & Hi & E)]; [left|right; exists i]; rewrite app_length; cbn [length]; rewrite Nat.add_1_r, <- repeat_snoc.
  - rewrite <- E. reflexivity.
  - split; [lia|]. rewrite upd_app by (rewrite repeat_length; exact Hi). rewrite <- E. reflexivity.
Qed.

Lemma early_in ws i w : early ws -> nth_error ws i = Some w -> w = fresh \/ w = first.
Proof.
  intros H Hi. apply nth_error_In in Hi. destruct H as [E|(j & _ & E)]; rewrite E in Hi.
  - left. exact (repeat_spec _ _ _ Hi).
  - apply in_upd in Hi as [->|Hi]; [right; reflexivity|left; exact (repeat_spec _ _ _ Hi)].
Qed.

Lemma no_hold_repeat k : existsb is_hold (repeat fresh k) = false.
Proof. induction k; cbn; auto. Qed.

Lemma hold_upd i k : i < k -> existsb is_hold (upd i (fun _ => first) (repeat fresh k)) = true.
Proof.
  revert i. induction k as [|k IH]; intros [|i] H; try lia; cbn; [reflexivity|]. apply IH. lia.
Qed.

Lemma early_worker ws ws' : early ws ->
  step ts tk init fails (mkConfig (MSend samples) [] false [] ws) (mkConfig (MSend samples) [] false [] ws') ->
  early ws' /\ length ws' = length ws.
Proof.
  intros He S. inversion S; subst.
  all: lazymatch goal with
       | H : existsb is_hold _ = false |- _ => idtac
       | H : nth_error _ _ = Some (WBusy _ _ _) |- _ => destruct (early_in _ _ _ He H); discriminate
       | H : nth_error _ _ = Some (WSending _) |- _ => destruct (early_in _ _ _ He H); discriminate
       | _ => exfalso
       end.
  match goal with H : nth_error ?l ?j = Some _, G : existsb is_hold _ = false |- _ => rename H into Hi, G into Hh; rename j into i; rename l into ws end.
  destruct (early_in _ _ _ He Hi) as [E|E]; [|discriminate]. injection E as -> ->.
  assert (Hl : i < length ws) by (apply nth_error_Some; congruence).
  rewrite upd_len. split; [|reflexivity]. destruct He as [E|(j & Hj & E)].
  - right. exists i. rewrite upd_len. split; [exact Hl|]. rewrite <- E. reflexivity.
  - exfalso. rewrite E, hold_upd in Hh by exact Hj. discriminate.
Qed.

(** such workers are also reached when all of them exist from the start *)
Lemma early_reached fails' samples' ws : early ws ->
  steps ts tk init fails' (start ts (length ws) samples') (mkConfig (MSend samples') [] false [] ws).
Proof.
  intros [E|(i & Hi & E)]; unfold start.
  - rewrite <- E. apply steps_refl.
  - rewrite E at 2. eapply steps_step; [apply steps_refl|]. apply st_lock; [|apply no_hold_repeat].
    apply nth_error_repeat. exact Hi.
Qed.

Definition unwinds (c : config) : Prop := c_main c = MUnwinding \/ c_main c = MPanicked.

Lemma unwinds_step c c' : unwinds c -> step ts tk init fails c c' ->
  unwinds c' /\ step ts tk init true c c' /\ length (c_workers c') = length (c_workers c).
Proof.
  intros H S. destruct S; destruct H as [H|H]; cbn [c_main c_workers] in *; try discriminate; subst; unfold unwinds;
    cbn [c_main c_workers]; rewrite ?upd_len; (split; [auto|split; [econstructor; eassumption|reflexivity]]).
Qed.

(** what a state of an execution is *)
Definition described (s : spawned) : Prop :=
  match s with
  | Spawning ws => early ws /\ length ws <= n /\ forall i, i < length ws -> os i = true
  | Running c =>
      (steps ts tk init fails (start ts n samples) c /\ forall i, i < n -> os i = true) \/
      (exists k, k < n /\ os k = false /\ (forall i, i < k -> os i = true) /\ unwinds c /\ length (c_workers c) = k /\
         steps ts tk init true (start ts k []) c)
  end.

Lemma described_ssteps k s : ssteps ts tk init fails n samples os k s -> described s.
Proof.
  induction 1 as [|k s s' _ IH S].
  - cbn. split; [left; reflexivity|]. split; [lia|]. intros i Hi. lia.
  - destruct S as [ws Hl Ho|ws Hl Ho|ws Hl|ws ws' S|c c' S]; cbn [described] in *.
    + destruct IH as (He & _ & Hi). split; [apply early_snoc; exact He|]. rewrite app_length. cbn [length].
      split; [lia|]. intros i H. destruct (Nat.eq_dec i (length ws)) as [->|Hne]; [exact Ho|apply Hi; lia].
    + destruct IH as (He & _ & Hi). right. exists (length ws). repeat split; auto.
      * left. reflexivity.
      * eapply steps_step; [apply (early_reached true [] ws He)|]. apply st_sampler_panic. reflexivity.
    + destruct IH as (He & _ & Hi). left. subst n. split; [apply early_reached; exact He|exact Hi].
    + destruct IH as (He & Hl & Hi). destruct (early_worker ws ws' He S) as (He' & El). rewrite El. auto.
    + destruct IH as [(H & Hi)|(j & Hj & Ho & Hi & Hu & Hl & H)]; [left|right].
      * split; [eapply steps_step; eassumption|exact Hi].
      * destruct (unwinds_step c c' Hu S) as (Hu' & S' & El). exists j. repeat split; auto; [congruence|]. eapply steps_step; eassumption.
Qed.

(** ** Termination *)
Definition smeasure (s : spawned) : nat :=
  match s with
  | Spawning ws => 5 * length samples + n + 5 + sum (map w_weight ws) + 5 * (n - length ws)
  | Running c => measure c
  end.

Lemma sum_map_app {A} (f : A -> nat) l1 l2 : sum (map f (l1 ++ l2)) = sum (map f l1) + sum (map f l2).
Proof. rewrite map_app. induction (map f l1) as [|a l IH]; [reflexivity|]. cbn [app]. change (sum (a :: l ++ map f l2)) with (a + sum (l ++ map f l2)). change (sum (a :: l)) with (a + sum l). lia. Qed.

Lemma sstep_measure s s' : sstep ts tk init fails n samples os s s' -> described s -> smeasure s' < smeasure s.
Proof.
  intros S D. destruct S as [ws Hl Ho|ws Hl Ho|ws Hl|ws ws' S|c c' S].
  - unfold smeasure. rewrite sum_map_app, app_length. cbn [map sum w_weight length fold_right]. cbn. lia.
  - unfold smeasure, measure. cbn [c_main c_jobs c_results c_workers m_weight length]. lia.
  - unfold smeasure, measure. cbn [c_main c_jobs c_results c_workers m_weight length]. lia.
  - cbn in D. destruct D as (He & _). destruct (early_worker ws ws' He S) as (_ & El).
    apply step_measure in S. unfold measure in S. cbn [c_main c_jobs c_results c_workers m_weight length] in S.
    unfold smeasure. rewrite El in *. lia.
  - apply step_measure in S. exact S.
Qed.

Lemma ssteps_bounded k s : ssteps ts tk init fails n samples os k s -> k + smeasure s <= 5 * length samples + 6 * n + 5.
Proof.
  induction 1 as [|k s s' H IH S].
  - cbn -[Nat.mul]. lia.
  - apply (sstep_measure s s') in S; [|eapply described_ssteps; exact H]. lia.
Qed.
End Proofs.

(** Starting the threads one by one, with the early ones already competing for
    the lock, shows nothing that would not be possible if all threads existed
    from the start; and an execution that is past the loop either has started
    every thread, or is the one in which the system refused thread [k]. *)
Theorem C107_starting_adds_nothing : forall ts tk init fails n samples os k c,
  ssteps ts tk init fails n samples os k (Running c) ->
  ((forall i, i < n -> os i = true) /\ steps ts tk init fails (start ts n samples) c) \/
  (exists j, j < n /\ os j = false /\ (forall i, i < j -> os i = true) /\
     length (c_workers c) = j /\ (c_main c = MUnwinding \/ c_main c = MPanicked)).
Proof.
  intros ts tk init fails n samples os k c H. apply described_ssteps in H. cbn in H.
  destruct H as [(H & Hi)|(j & Hj & Ho & Hi & Hu & Hl & _)]; [left; auto|right]. exists j. auto 6.
Qed.

(** If it returns, all [n] threads were started and have ended, and the value
    is that of the sequential loop over the samples. *)
Theorem C107_returns_the_sequential_result : forall ts tk init fails n samples os k c st,
  tokenizer_new ts = Ret tk -> seqs_in_range ts -> 1 <= n ->
  ssteps ts tk init fails n samples os k (Running c) -> c_main c = MReturned st ->
  tokenize_file_sync ts samples init = Ret st /\
  fails = false /\ (forall i, i < n -> os i = true) /\
  length (c_workers c) = n /\ (forall w, In w (c_workers c) -> w = WDone).
Proof.
  intros ts tk init fails n samples os k c st Htk Hr Hn H E. apply described_ssteps in H. cbn in H.
  destruct H as [(H & Hi)|(j & _ & _ & _ & [Hu|Hu] & _)]; try (rewrite E in Hu; discriminate).
  pose proof (inv_steps ts tk init fails n samples Htk Hr Hn c H) as I.
  destruct (inv_returned ts tk init fails n samples Hn c st I E) as (Est & _ & Hf & _).
  destruct (C102_nothing_left ts tk init fails n samples c Htk Hr Hn H) as (Hl & Hd & _).
  destruct (Hd st E) as (Hd1 & _).
  split; [subst st; apply sync_eq; assumption|]. auto.
Qed.

(** No schedule deadlocks, whichever threads the system starts. *)
Theorem C107_no_deadlock : forall ts tk init fails n samples os k s,
  tokenizer_new ts = Ret tk -> seqs_in_range ts -> 1 <= n -> ~ In [] samples ->
  ssteps ts tk init fails n samples os k s ->
  (exists c, s = Running c /\ final c) \/ exists s', sstep ts tk init fails n samples os s s'.
Proof.
  intros ts tk init fails n samples os k s Htk Hr Hn Hs H. apply described_ssteps in H.
  destruct s as [ws|c]; cbn in H.
  - right. destruct H as (_ & Hl & _). destruct (Nat.eq_dec (length ws) n) as [E|E].
    + eexists. apply ss_ready. exact E.
    + destruct (os (length ws)) eqn:Eo; eexists; [apply ss_spawn|apply ss_refused]; try assumption; lia.
  - destruct H as [(H & Hi)|(j & Hj & Ho & Hi & Hu & Hl & H)].
    + destruct (C12_no_deadlock ts tk init fails n samples c Htk Hr Hn Hs H) as [Hf|(c' & S)]; [left; eauto|right].
      eexists. apply ss_run. exact S.
    + destruct Hu as [Hu|Hu]; [|left; exists c; split; [reflexivity|unfold final; rewrite Hu; exact I]]. right.
      assert (G : exists c', step ts tk init fails c c').
      { destruct c as [m jobs closed results ws]. cbn in Hu, Hl. subst m.
        destruct (forallb is_over ws) eqn:Eo; [eexists; apply st_unwound; exact Eo|].
        assert (1 <= j) by (destruct ws; [discriminate|cbn in Hl; lia]).
        pose proof (inv_steps ts tk init true j [] Htk Hr ltac:(assumption) _ H) as I.
        assert (Hex : exists i w, nth_error ws i = Some w /\ is_over w = false).
        { clear - Eo. induction ws as [|w ws IH]; [discriminate|]. cbn in Eo.
          destruct (is_over w) eqn:E; [|exists 0, w; auto]. cbn in Eo.
          destruct (IH Eo) as (i & w' & Hi & Hw). exists (S i), w'; auto. }
        destruct Hex as (i & w & Hi' & Hw).
        apply (worker_can_step ts tk init fails MUnwinding jobs closed results ws i w Hi' Hw). right.
        pose proof (inv_closed _ _ _ _ _ _ _ I) as Hc. cbn in Hc. symmetry. exact Hc. }
      destruct G as (c' & S). eexists. apply ss_run. exact S.
Qed.

(** Every execution is finite, with an explicit bound. *)
Theorem C107_bounded : forall ts tk init fails n samples os k s,
  ssteps ts tk init fails n samples os k s -> k <= 5 * length samples + 6 * n + 5.
Proof. intros. pose proof (ssteps_bounded ts tk init fails n samples os k s H). lia. Qed.

(** Executions that cannot go on: if the system starts every thread and the
    sampler does not fail, the call has returned the sequential result. *)
Theorem C107_ends_with_the_result : forall ts tk init n samples os k s,
  tokenizer_new ts = Ret tk -> seqs_in_range ts -> 1 <= n -> ~ In [] samples ->
  (forall i, i < n -> os i = true) ->
  ssteps ts tk init false n samples os k s -> (forall s', ~ sstep ts tk init false n samples os s s') ->
  exists c st, s = Running c /\ c_main c = MReturned st /\ tokenize_file_sync ts samples init = Ret st.
Proof.
  intros ts tk init n samples os k s Htk Hr Hn Hs Ho H Hstuck.
  destruct (C107_no_deadlock ts tk init false n samples os k s Htk Hr Hn Hs H) as [(c & -> & Hf)|(s' & S)];
    [|exfalso; exact (Hstuck _ S)].
  pose proof (described_ssteps _ _ _ _ _ _ _ _ _ H) as D. cbn in D.
  destruct D as [(D & _)|(j & Hj & Hoj & _)]; [|rewrite Ho in Hoj by exact Hj; discriminate].
  destruct (C12_maximal_executions_return ts tk init n samples c Htk Hr Hn Hs D) as (st & E & Hst).
  - intros c' S. apply (Hstuck (Running c')), ss_run, S.
  - eauto.
Qed.

(** If the system refuses one of the threads, for any data and any sampler the
    call panics, after every thread that was started has ended by itself. *)
Theorem C107_refusal_is_reported : forall ts tk init fails n samples os j k s,
  tokenizer_new ts = Ret tk -> seqs_in_range ts ->
  j < n -> os j = false -> (forall i, i < j -> os i = true) ->
  ssteps ts tk init fails n samples os k s -> (forall s', ~ sstep ts tk init fails n samples os s s') ->
  exists c, s = Running c /\ c_main c = MPanicked /\ length (c_workers c) = j /\
    (forall w, In w (c_workers c) -> w = WDone).
Proof.
  intros ts tk init fails n samples os j k s Htk Hr Hj Ho Hi H Hstuck.
  pose proof (described_ssteps _ _ _ _ _ _ _ _ _ H) as D. destruct s as [ws|c]; cbn in D.
  - exfalso. destruct D as (_ & Hl & Hd). destruct (Nat.eq_dec (length ws) n) as [E|E].
    + eapply Hstuck. apply ss_ready. exact E.
    + destruct (os (length ws)) eqn:Eo; (eapply Hstuck; [apply ss_spawn + apply ss_refused]; try exact Eo; lia).
  - destruct D as [(_ & D)|(j' & Hj' & Ho' & Hi' & Hu & Hl & D)]; [rewrite D in Ho by exact Hj; discriminate|].
    assert (Ej : j' = j).
    { destruct (Nat.lt_trichotomy j' j) as [L|[L|L]]; [|exact L|]; [rewrite Hi in Ho' by exact L|rewrite Hi' in Ho by exact L]; discriminate. }
    rewrite Ej in Hl, D. exists c. split; [reflexivity|].
    destruct (Nat.eq_dec j 0) as [Ez|Hne].
    + rewrite Ez in Hl |- *. destruct c as [m jobs closed results ws]. cbn in Hl, Hu |- *. destruct ws; [|discriminate Hl].
      destruct Hu as [Hu|Hu]; cbn [c_main] in Hu; rewrite Hu in *.
      * exfalso. eapply Hstuck. apply ss_run, st_unwound. reflexivity.
      * repeat split. intros w [].
    + assert (Hj1 : 1 <= j) by lia.
      assert (Hstuck' : forall c', ~ step ts tk init true c c').
      { intros c' S. destruct (unwinds_step ts tk init true c c' Hu S) as (_ & S' & _).
        apply (Hstuck (Running c')), ss_run. clear - S Hu. destruct S; destruct Hu as [Hu|Hu]; cbn in Hu; try discriminate; subst; econstructor; eassumption. }
      pose proof (C13_sampler_panic_is_reported_partial ts tk init j [] c Htk Hr Hj1 (fun x => x) D Hstuck') as E.
      split; [exact E|]. split; [exact Hl|]. intros w Hw.
      destruct (C102_nothing_left ts tk init true j [] c Htk Hr Hj1 D) as (_ & _ & Hn).
      destruct (Hn E w Hw) as [Hw'|Hw']; [exact Hw'|]. subst w. exfalso.
      exact (no_dead ts tk init true j [] c (inv_steps ts tk init true j [] Htk Hr Hj1 c D) (fun x => x) Hw).
Qed.

(** The hypotheses are met. The loop really is interleaved: with three threads,
    the first one may hold the lock before the second one is started; and the
    system may then refuse the third. *)
Example C107_example : forall ts tk init fails samples,
  (exists s, ssteps ts tk init fails 3 samples (fun _ => true) 3 s /\
    s = Spawning [WHold (stats_new ts None) []; WIdle (stats_new ts None) []]) /\
  (exists c, ssteps ts tk init fails 3 samples (fun i => i <? 2) 4 (Running c) /\
    c_main c = MUnwinding /\ length (c_workers c) = 2).
Proof.
  intros. assert (G : forall os, os 0 = true -> os 1 = true -> ssteps ts tk init fails 3 samples os 3 (Spawning [WHold (stats_new ts None) []; WIdle (stats_new ts None) []])).
  { intros os H0 H1. eapply ssteps_step; [eapply ssteps_step; [eapply ssteps_step; [apply ssteps_start|]|]|].
    - apply ss_spawn; [cbn; lia|exact H0].
    - apply ss_worker. apply (st_lock _ _ _ _ 0); reflexivity.
    - apply (ss_spawn _ _ _ _ _ _ _ [WHold (stats_new ts None) []]); [cbn; lia|exact H1]. }
  split.
  - eexists. split; [apply G; reflexivity|reflexivity].
  - eexists. split; [eapply ssteps_step; [apply G; reflexivity|apply ss_refused; [cbn; lia|reflexivity]]|split; reflexivity].
Qed.
