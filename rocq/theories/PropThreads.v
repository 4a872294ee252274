(** * Property C102: what parallel tokenization holds while it runs and leaves behind. *)
From Verif Require Import Base BaseLemmas TokenSetModel TokenizerModel TokSpec TokenizerProof2 StatsAlgebra BatchModel BatchProof PropBatch.

(** The samples that the sampler has not been asked for yet. *)
Definition not_yet (c : config) : list bstr :=
  match c_main c with MSend rest => rest | _ => [] end.
(** The samples in memory: in the channel or being tokenized. *)
Definition in_memory (c : config) : list bstr :=
  c_jobs c ++ flat_map (fun w => match w with WBusy _ _ x => [x] | _ => [] end) (c_workers c).

Definition busy (w : worker) : list bstr := match w with WBusy _ _ x => [x] | _ => [] end.

Lemma busy_upd : forall ws i w w', nth_error ws i = Some w ->
  exists l1 l2, flat_map busy ws = l1 ++ busy w ++ l2 /\ flat_map busy (upd i (fun _ => w') ws) = l1 ++ busy w' ++ l2.
Proof.
  induction ws as [|a ws IH]; intros [|i] w w' H; try discriminate; cbn in H.
  - injection H as ->. exists [], (flat_map busy ws). split; reflexivity.
  - destruct (IH i w w' H) as (l1 & l2 & E1 & E2). exists (busy a ++ l1), l2. cbn. rewrite E1, E2, !app_assoc. split; reflexivity.
Qed.

Lemma busy_len ws : length (flat_map busy ws) <= length ws.
Proof. induction ws as [|w ws IH]; [cbn; lia|]. cbn [flat_map]. rewrite app_length. destruct w; cbn; lia. Qed.

Lemma upd_len {A} (f : A -> A) : forall l i, length (upd i f l) = length l.
Proof. induction l; intros [|i]; cbn; auto. Qed.

Lemma nth_upd_other {A} (f : A -> A) : forall l i j, i <> j -> nth_error (upd i f l) j = nth_error l j.
Proof. induction l as [|a l IH]; intros [|i] [|j] H; cbn; auto; try congruence. Qed.

Section Run.
Context (ts : tokenset) (tk : tokenizer) (init : option nat) (fails : bool) (samples : list bstr) (n : nat).

Record held (c : config) : Prop := {
  h_jobs : length (c_jobs c) <= 4;
  h_n : length (c_workers c) = n;
  h_share : exists sent finished, samples = sent ++ not_yet c /\ Permutation sent (finished ++ c_jobs c ++ flat_map busy (c_workers c));
  h_join : match c_main c with
           | MJoin k _ => forall i, k <= i -> i < n -> nth_error (c_workers c) i = Some WDone
           | MReturned _ => forall i, i < n -> nth_error (c_workers c) i = Some WDone
           | MPanicked => forallb is_over (c_workers c) = true
           | _ => True
           end
}.

Lemma work_not_busy st buf x : busy (work tk st buf x) = [].
Proof. unfold work. destruct (bind _ _) as [[? ?]| |]; reflexivity. Qed.

(** a step of worker [i], which was not over *)
Lemma held_worker m jobs closed results ws jobs' closed' results' i w w' :
  held (mkConfig m jobs closed results ws) -> nth_error ws i = Some w -> is_over w = false ->
  length jobs' <= 4 ->
  (forall l1 l2, exists fin, Permutation (jobs ++ l1 ++ busy w ++ l2) (fin ++ jobs' ++ l1 ++ busy w' ++ l2)) ->
  held (mkConfig m jobs' closed' results' (upd i (fun _ => w') ws)).
Proof.
  intros [Hj Hn (sent & fin & Es & Hp) Hk] Hi Ho Hj' Hx. cbn [c_jobs c_workers c_main not_yet] in *.
  constructor; cbn [c_jobs c_workers c_main not_yet].
  - exact Hj'.
  - rewrite upd_len. exact Hn.
  - destruct (busy_upd ws i w w' Hi) as (l1 & l2 & E1 & E2). destruct (Hx l1 l2) as (fin' & Hf).
    exists sent, (fin ++ fin'). split; [exact Es|]. rewrite E2. rewrite Hp, E1. rewrite <- app_assoc. apply Permutation_app_head. exact Hf.
  - assert (Hne : forall j, nth_error ws j = Some WDone -> i <> j) by (intros j Hj0 ->; rewrite Hi in Hj0; injection Hj0 as ->; discriminate).
    destruct m; auto.
    + intros j H1 H2. specialize (Hk j H1 H2). rewrite nth_upd_other; [exact Hk|apply Hne; exact Hk].
    + intros j H2. specialize (Hk j H2). rewrite nth_upd_other; [exact Hk|apply Hne; exact Hk].
    + exfalso. rewrite forallb_forall in Hk. specialize (Hk w (nth_error_In _ _ Hi)). congruence.
Qed.

Lemma held_main m m' jobs closed results ws closed' results' :
  held (mkConfig m jobs closed results ws) -> not_yet (mkConfig m jobs closed results ws) = not_yet (mkConfig m' jobs closed' results' ws) ->
  match m' with
  | MJoin k _ => forall i, k <= i -> i < n -> nth_error ws i = Some WDone
  | MReturned _ => forall i, i < n -> nth_error ws i = Some WDone
  | MPanicked => forallb is_over ws = true
  | _ => True
  end ->
  held (mkConfig m' jobs closed' results' ws).
Proof.
  intros [Hj Hn (sent & fin & Es & Hp) Hk] E Hm. constructor; cbn [c_jobs c_workers c_main] in *; auto.
  exists sent, fin. split; [rewrite <- E; exact Es|exact Hp].
Qed.

Lemma held_step c c' : held c -> step ts tk init fails c c' -> held c'.
Proof.
  intros H S. destruct S.
  - destruct H as [Hj Hn (sent & fin & Es & Hp) Hk]. constructor; cbn [c_jobs c_workers c_main not_yet] in *; auto.
    + rewrite app_length. cbn. lia.
    + exists (sent ++ [x]), fin. split; [rewrite <- app_assoc; exact Es|].
      rewrite Hp. rewrite <- !app_assoc. apply Permutation_app_head, Permutation_app_head. cbn. symmetry. apply Permutation_cons_append.
  - apply (held_main _ _ _ _ _ _ _ _ H); auto.
  - apply (held_main _ _ _ _ _ _ _ _ H); auto.
  - apply (held_main _ _ _ _ _ _ _ _ H); auto.
  - apply (held_main _ _ _ _ _ _ _ _ H); auto.
  - apply (held_main _ _ _ _ _ _ _ _ H); auto. pose proof (h_n _ H) as E. cbn in E. intros i H1 H2. lia.
  - apply (held_main _ _ _ _ _ _ _ _ H); auto. pose proof (h_join _ H) as J. cbn [c_main c_workers] in J.
    intros i H1 H2. destruct (Nat.eq_dec i k) as [->|]; [assumption|apply J; lia].
  - apply (held_main _ _ _ _ _ _ _ _ H); auto.
  - apply (held_main _ _ _ _ _ _ _ _ H); auto. pose proof (h_join _ H) as J. cbn [c_main c_workers] in J. intros i H2. apply J; lia.
  - apply (held_main _ _ _ _ _ _ _ _ H); auto.
  - eapply (held_worker _ _ _ _ _ _ _ _ _ _ _ H H0); [reflexivity|apply (h_jobs _ H)|]. intros l1 l2. exists []. reflexivity.
  - eapply (held_worker _ _ _ _ _ _ _ _ _ _ _ H H0); [reflexivity|pose proof (h_jobs _ H) as J; cbn in J; lia|].
    intros l1 l2. exists []. cbn. rewrite app_assoc. rewrite Permutation_middle. rewrite <- app_assoc. reflexivity.
  - eapply (held_worker _ _ _ _ _ _ _ _ _ _ _ H H0); [reflexivity|cbn; lia|]. intros l1 l2. exists []. reflexivity.
  - eapply (held_worker _ _ _ _ _ _ _ _ _ _ _ H H0); [reflexivity|apply (h_jobs _ H)|].
    intros l1 l2. exists [x]. rewrite work_not_busy. cbn. rewrite !app_assoc. symmetry. apply Permutation_middle.
  - eapply (held_worker _ _ _ _ _ _ _ _ _ _ _ H H0); [reflexivity|apply (h_jobs _ H)|]. intros l1 l2. exists []. reflexivity.
Qed.

Lemma held_steps c : steps ts tk init fails (start ts n samples) c -> held c.
Proof.
  intros H. remember (start ts n samples) as c0 eqn:E. induction H as [c0|a b d _ IH S]; subst.
  - constructor; cbn.
    + lia.
    + apply repeat_length.
    + exists [], []. split; [reflexivity|]. assert (G : forall k, flat_map busy (repeat (WIdle (stats_new ts None) []) k) = []) by (induction k; cbn; auto).
      rewrite G. constructor.
    + exact I.
  - eapply held_step; [apply IH; reflexivity|exact S].
Qed.
End Run.

(** At every moment of every schedule, whatever happens to the workers: the samples
    asked for so far are the first ones, in order; each of them is finished or
    in memory, exactly once; at most four wait in the channel, and at most
    one for each worker is being tokenized; and at most one worker is taking a sample. *)
Theorem C102_bounded_memory : forall ts tk init fails n samples c,
  tokenizer_new ts = Ret tk -> seqs_in_range ts -> 1 <= n ->
  steps ts tk init fails (start ts n samples) c ->
  length (in_memory c) <= 4 + n /\ length (c_jobs c) <= 4 /\
  (exists asked finished, samples = asked ++ not_yet c /\ Permutation asked (finished ++ in_memory c)) /\
  length (filter is_hold (c_workers c)) <= 1.
Proof.
  intros ts tk init fails n samples c Ht Hs Hn1 H. pose proof (held_steps ts tk init fails samples n c H) as [Hj Hn (sent & fin & Es & Hp) _].
  unfold in_memory. fold busy. change (fun w => match w with WBusy _ _ x => [x] | _ => [] end) with busy.
  split; [|split; [exact Hj|split]].
  - rewrite app_length. pose proof (busy_len (c_workers c)). lia.
  - exists sent, fin. split; assumption.
  - exact (inv_hold _ _ _ _ _ _ _ (inv_steps ts tk init fails n samples Ht Hs Hn1 c H)).
Qed.

(** When the call has returned, every worker has ended normally, and no sample
    and no result is left in a channel; when it has panicked, every worker has
    ended. *)
Theorem C102_nothing_left : forall ts tk init fails n samples c,
  tokenizer_new ts = Ret tk -> seqs_in_range ts -> 1 <= n ->
  steps ts tk init fails (start ts n samples) c ->
  length (c_workers c) = n /\
  (forall st, c_main c = MReturned st ->
     (forall w, In w (c_workers c) -> w = WDone) /\ c_jobs c = [] /\ c_results c = []) /\
  (c_main c = MPanicked -> forall w, In w (c_workers c) -> w = WDone \/ w = WDead).
Proof.
  intros ts tk init fails n samples c Ht Hs Hn1 H.
  pose proof (held_steps ts tk init fails samples n c H) as [_ Hn _ Hk].
  pose proof (inv_steps ts tk init fails n samples Ht Hs Hn1 c H) as I.
  split; [exact Hn|]. split.
  - intros st E. rewrite E in Hk.
    assert (Hd : forall w, In w (c_workers c) -> w = WDone).
    { intros w Hw. apply In_nth_error in Hw as (i & Hi). assert (i < n) by (rewrite <- Hn; apply nth_error_Some; congruence).
      rewrite (Hk i) in Hi by assumption. congruence. }
    split; [exact Hd|]. split.
    + destruct (c_workers c) as [|w ws] eqn:Ew; [cbn in Hn; lia|].
      apply (inv_late _ _ _ _ _ _ _ I w); rewrite ?Ew; [left; reflexivity|rewrite (Hd w (or_introl eq_refl)); reflexivity].
    + pose proof (inv_done _ _ _ _ _ _ _ I) as D. rewrite E in D. cbn [received] in D.
      pose proof (cnt_le is_done (c_workers c)). rewrite Hn in *. destruct (c_results c); [reflexivity|cbn in D; lia].
  - intros E w Hw. rewrite E in Hk. rewrite forallb_forall in Hk. specialize (Hk w Hw). destruct w; try discriminate; auto.
Qed.

(** The bound is reached: one worker and more than four samples, for every token set. *)
Theorem C102_bound_reached : forall ts tk init fails a b c d e rest,
  exists x, steps ts tk init fails (start ts 1 (a :: b :: c :: d :: e :: rest)) x /\
    length (in_memory x) = 4 + 1 /\ not_yet x = rest.
Proof.
  intros. eexists. split.
  - eapply steps_step; [eapply steps_step; [eapply steps_step; [eapply steps_step; [eapply steps_step; [eapply steps_step; [eapply steps_step; [apply steps_refl|]|]|]|]|]|]|].
    + apply st_send. cbn. lia.
    + apply (st_lock _ _ _ _ 0); reflexivity.
    + apply (st_take _ _ _ _ 0). reflexivity.
    + apply st_send. cbn. lia.
    + apply st_send. cbn. lia.
    + apply st_send. cbn. lia.
    + apply st_send. cbn. lia.
  - split; reflexivity.
Qed.

(** The hypotheses are met by every usable token set, and some schedule returns. *)
Example C102_example : forall ts tk, tokenizer_new ts = Ret tk -> seqs_in_range ts ->
  exists c, steps ts tk None false (start ts 2 [[x61]; [x62; x63]]) c /\ c_jobs c = [] /\ c_results c = [] /\
    c_workers c = [WDone; WDone] /\ exists st, c_main c = MReturned st.
Proof.
  intros ts tk Ht Hs. destruct (C12_some_execution_returns ts tk None 2 [[x61]; [x62; x63]] Ht Hs) as (c & st & H & E); [lia|cbn; intuition discriminate|].
  exists c. split; [exact H|]. destruct (C102_nothing_left ts tk None false 2 _ c Ht Hs ltac:(lia) H) as (Hn & Hret & _).
  destruct (Hret st E) as (Hw & Hj & Hres). split; [exact Hj|]. split; [exact Hres|]. split; [|eauto].
  destruct (c_workers c) as [|w1 [|w2 [|w3 ws]]]; cbn in Hn; try lia.
  rewrite (Hw w1), (Hw w2) by (cbn; auto). reflexivity.
Qed.
