(** * Invariants of the parallel tokenizer. *)
From Verif Require Import Base BaseLemmas TokenSetModel TokenizerModel TokSpec
  TokenizerProof1 TokenSetProof BatchModel StatsAlgebra.

Lemma Forall2_upd {A B} (R : A -> B -> Prop) l l' i a b :
  Forall2 R l l' -> R a b -> Forall2 R (upd i (fun _ => a) l) (upd i (fun _ => b) l').
Proof.
  intros H Hab. revert i. induction H; intros [|i]; cbn; constructor; auto.
Qed.

Lemma concat_upd {A} (ls : list (list A)) i l l' : nth_error ls i = Some l ->
  Permutation (l ++ concat (upd i (fun _ => l') ls)) (l' ++ concat ls).
Proof.
  revert i; induction ls as [|x ls IH]; intros [|i] H; cbn in *; try discriminate.
  - injection H as ->. rewrite !app_assoc. apply Permutation_app_tail, Permutation_app_comm.
  - specialize (IH i H).
    transitivity (x ++ l ++ concat (upd i (fun _ => l') ls));
      [rewrite !app_assoc; apply Permutation_app_tail, Permutation_app_comm|].
    rewrite IH. rewrite !app_assoc. apply Permutation_app_tail, Permutation_app_comm.
Qed.

Definition b01 (b : bool) : nat := if b then 1 else 0.
Definition cnt {A} (p : A -> bool) (l : list A) : nat := length (filter p l).

Arguments cnt : simpl never.

Lemma cnt_cons {A} (p : A -> bool) x l : cnt p (x :: l) = b01 (p x) + cnt p l.
Proof. unfold cnt, b01; cbn. destruct (p x); reflexivity. Qed.

Lemma cnt_upd {A} (p : A -> bool) l i a a' : nth_error l i = Some a ->
  cnt p (upd i (fun _ => a') l) + b01 (p a) = cnt p l + b01 (p a').
Proof.
  revert i; induction l as [|x l IH]; intros [|i] H; cbn [upd nth_error] in *; try discriminate.
  - injection H as ->. rewrite !cnt_cons. lia.
  - specialize (IH i H). rewrite !cnt_cons. lia.
Qed.

Lemma cnt_le {A} (p : A -> bool) l : cnt p l <= length l.
Proof. unfold cnt. induction l; cbn; [lia|]. destruct (p _); cbn; lia. Qed.

Lemma cnt_all {A} (p : A -> bool) l : cnt p l = length l -> Forall (fun x => p x = true) l.
Proof.
  induction l as [|x l IH]; intros H; [constructor|].
  rewrite cnt_cons in H; cbn [length] in H; constructor.
  - pose proof (cnt_le p l). destruct (p x); [reflexivity|cbn in H; lia].
  - apply IH. pose proof (cnt_le p l). destruct (p x); cbn in H; lia.
Qed.

Lemma cnt_not_all {A} (p : A -> bool) l : cnt p l < length l ->
  exists i x, nth_error l i = Some x /\ p x = false.
Proof.
  induction l as [|x l IH]; intros H; [cbn in H; lia|].
  destruct (p x) eqn:E; [|exists 0, x; auto].
  rewrite cnt_cons, E in H; cbn in H. destruct IH as (i & y & Hi & Hy); [lia|]. exists (S i), y; auto.
Qed.

Definition is_done (w : worker) : bool := match w with WDone => true | _ => false end.
Definition is_late (w : worker) : bool := match w with WDone | WSending _ => true | _ => false end.

Section Par.
Variables (ts : tokenset) (tk : tokenizer) (init : option nat) (fails : bool).
Variables (n : nat) (samples : list bstr).
Hypothesis Htk : tokenizer_new ts = Ret tk.
Hypothesis Hr : seqs_in_range ts.
Hypothesis Hn : 1 <= n.

Let T := tally ts tk.

Definition good_w (w : worker) (l : list bstr) : Prop :=
  match w with
  | WIdle st _ | WHold st _ | WSending st => st = T None l /\ ~ In [] l
  | WBusy st _ x => exists l', l = l' ++ [x] /\ st = T None l' /\ ~ In [] l'
  | WDone => l = []
  | WDead => In [] l
  end.

Definition good_m (m : main) (lm rest : list bstr) : Prop :=
  ~ In [] lm /\
  match m with
  | MSend r => rest = r /\ lm = []
  | MRecv _ st | MJoin _ st | MReturned st => rest = [] /\ st = T init lm /\ fails = false
  | MUnwinding | MPanicked => rest = [] /\ fails = true
  end.

(** Results the main thread has taken. *)
Definition received (m : main) : nat :=
  match m with
  | MRecv k _ => n - k
  | MJoin _ _ | MReturned _ => n
  | _ => 0
  end.
Definition main_bound (m : main) : Prop :=
  match m with MRecv k _ | MJoin k _ => k <= n | _ => True end.

Record inv (c : config) : Prop := {
  inv_share : exists lm rest lrs lws,
    good_m (c_main c) lm rest /\
    Forall2 (fun r l => r = T None l /\ ~ In [] l) (c_results c) lrs /\
    Forall2 good_w (c_workers c) lws /\
    Permutation (lm ++ rest ++ c_jobs c ++ concat lrs ++ concat lws) samples;
  inv_late : forall w, In w (c_workers c) -> is_late w = true -> c_closed c = true /\ c_jobs c = [];
  inv_closed : (match c_main c with MSend _ => false | _ => true end) = c_closed c;
  inv_len : length (c_workers c) = n;
  inv_bound : main_bound (c_main c);
  inv_done : cnt is_done (c_workers c) = length (c_results c) + received (c_main c) ;
  inv_hold : cnt is_hold (c_workers c) <= 1
}.

Lemma inv_start : inv (start ts n samples).
Proof.
  constructor; cbn.
  - exists [], samples, [], (repeat [] n). split; [split; [tauto|auto]|]. split; [constructor|].
    split.
    + clear. induction n; cbn; constructor; auto. split; [reflexivity|auto].
    + replace (concat (repeat [] n)) with (@nil bstr); [rewrite !app_nil_r; reflexivity|].
      clear. induction n; cbn; auto.
  - intros w Hw. apply repeat_spec in Hw as ->. discriminate.
  - reflexivity.
  - apply repeat_length.
  - exact I.
  - unfold cnt. clear. induction n; cbn; auto.
  - unfold cnt. replace (filter is_hold _) with (@nil worker); [cbn; lia|].
    clear. induction n; cbn; auto.
Qed.

(** Replacing one worker. *)
Lemma share_worker m results (jobs jobs' : list bstr) ws i w w' lm rest lrs lws extra :
  good_m m lm rest ->
  Forall2 (fun r l => r = T None l /\ ~ In [] l) results lrs ->
  Forall2 good_w ws lws ->
  Permutation (lm ++ rest ++ jobs ++ concat lrs ++ concat lws) samples ->
  nth_error ws i = Some w ->
  (forall l, good_w w l -> good_w w' (l ++ extra)) -> Permutation jobs (extra ++ jobs') ->
  exists lm rest lrs lws,
    good_m m lm rest /\
    Forall2 (fun r l => r = T None l /\ ~ In [] l) results lrs /\
    Forall2 good_w (upd i (fun _ => w') ws) lws /\
    Permutation (lm ++ rest ++ jobs' ++ concat lrs ++ concat lws) samples.
Proof.
  intros Hm Hres Hws Hp Hi Hw Hj.
  destruct (Forall2_nth _ _ _ Hws i w Hi) as (l & Hl & Hwl).
  exists lm, rest, lrs, (upd i (fun _ => l ++ extra) lws).
  split; [exact Hm|]. split; [exact Hres|]. split; [apply Forall2_upd; auto|].
  rewrite <- Hp. rewrite Hj. apply Permutation_app_head, Permutation_app_head.
  pose proof (concat_upd lws i l (l ++ extra) Hl) as Hc. rewrite <- app_assoc in Hc.
  apply Permutation_app_inv_l in Hc. rewrite Hc.
  rewrite <- !app_assoc. transitivity (extra ++ jobs' ++ concat lrs ++ concat lws); [|reflexivity].
  rewrite !app_assoc. apply Permutation_app_tail.
  rewrite <- !app_assoc. rewrite (Permutation_app_comm extra (jobs' ++ concat lrs)).
  rewrite <- app_assoc. reflexivity.
Qed.

Lemma in_upd {A} i (a : A) l x : In x (upd i (fun _ => a) l) -> x = a \/ In x l.
Proof.
  revert i; induction l as [|y l IH]; intros [|i] H; cbn in *; auto.
  - destruct H as [->|H]; auto.
  - destruct H as [->|H]; auto. apply IH in H as [->|H]; auto.
Qed.

Lemma work_good st buf x l : good_w (WBusy st buf x) l -> good_w (work tk st buf x) (l ++ []).
Proof.
  intros (l' & -> & -> & Hno). rewrite app_nil_r. unfold work.
  destruct (bstr_eqb_spec x []) as [->|Hx]; cbn [negb assert_that bind].
  - cbn. apply in_or_app; right; left; reflexivity.
  - destruct (process_slice_delta ts tk Htk Hr x) as (_ & cs & Hall).
    rewrite Hall by (apply tally_matches; assumption). cbn. split.
    + symmetry. apply tally_snoc.
    + intros H. apply in_app_or in H as [H|[H|[]]]; auto.
Qed.

Lemma work_kinds st buf x : is_late (work tk st buf x) = false /\ is_done (work tk st buf x) = false /\
  is_hold (work tk st buf x) = false.
Proof.
  unfold work. destruct (_ <- assert_that _ ;; _) as [[s b]| |]; cbn; auto.
Qed.

Lemma inv_step c c' : inv c -> step ts tk init fails c c' -> inv c'.
Proof.
  intros I S. destruct I as [(lm & rest & lrs & lws & Hm & Hres & Hws & Hp) Hlate Hcl Hlen Hb Hd Hh].
  destruct S; cbn [c_main c_jobs c_closed c_results c_workers received main_bound length] in *.
  - (* send *)
    subst closed. constructor; cbn; auto.
    + destruct Hm as (_ & -> & ->). exists [], rest0, lrs, lws.
      split; [split; [tauto|auto]|]. split; [exact Hres|]. split; [exact Hws|].
      rewrite <- Hp. cbn. rewrite <- !app_assoc. cbn.
      rewrite !app_assoc. rewrite <- (app_assoc (rest0 ++ jobs)). cbn. symmetry. rewrite <- app_assoc.
      cbn. rewrite <- !app_assoc. rewrite !app_assoc.
      transitivity ((rest0 ++ jobs) ++ x :: concat lrs ++ concat lws).
      * rewrite <- app_assoc. apply Permutation_cons_app. rewrite !app_assoc. reflexivity.
      * rewrite <- !app_assoc. reflexivity.
    + intros w Hw Hl. specialize (Hlate w Hw Hl). destruct Hlate as (Hlate & _). discriminate.
  - (* close *)
    subst closed. constructor; cbn; auto.
    + destruct Hm as (Hno & -> & ->). exists [], [], lrs, lws.
      split; [split; [tauto|auto]|]. auto.
    + intros w Hw Hl. destruct (Hlate w Hw Hl) as (H1 & H2); discriminate.
    + lia.
    + lia.
  - (* sampler panic *)
    subst closed. constructor; cbn; auto.
    + destruct Hm as (Hno & -> & ->). exists [], [], lrs, lws. split; [split; [tauto|auto]|]. auto.
    + intros w Hw Hl. destruct (Hlate w Hw Hl) as (H1 & H2); discriminate.
  - (* merge *)
    inversion Hres as [|? lr ? lrs' (-> & Hlr) Hres']; subst.
    destruct Hm as (Hno & -> & -> & Hf).
    rewrite (merge_eq ts) in H by (apply tally_matches; assumption). injection H as <-.
    constructor; cbn; auto.
    + exists (lm ++ lr), [], lrs', lws. split.
      * split; [intros Hin; apply in_app_or in Hin as [?|?]; auto|].
        split; [reflexivity|]. split; [symmetry; apply tally_app; assumption|exact Hf].
      * split; [exact Hres'|]. split; [exact Hws|]. rewrite <- Hp. cbn.
        rewrite <- !app_assoc. apply Permutation_app_head. rewrite !app_assoc.
        apply Permutation_app_tail, Permutation_app_tail. apply Permutation_app_comm.
    + cbn in Hb. lia.
    + cbn in Hb, Hd. lia.
  - (* merge panic: impossible *)
    exfalso. inversion Hres as [|? lr ? lrs' (-> & Hlr) Hres']; subst.
    destruct Hm as (Hno & -> & -> & Hf).
    rewrite (merge_eq ts) in H by (apply tally_matches; assumption). discriminate.
  - (* received *)
    constructor; cbn; auto.
    + exists lm, rest, lrs, lws. auto.
    + lia.
    + cbn in Hd. lia.
  - (* join *)
    constructor; cbn; auto.
    + exists lm, rest, lrs, lws. auto.
    + cbn in Hb. lia.
  - (* join panic *)
    exfalso. assert (E : cnt is_done ws = length ws) by (pose proof (cnt_le is_done ws); cbn in Hd; lia).
    apply cnt_all in E. rewrite Forall_forall in E. specialize (E _ (nth_error_In _ _ H)). discriminate.
  - (* return *)
    constructor; cbn; auto. exists lm, rest, lrs, lws. auto.
  - (* unwound *)
    constructor; cbn; auto. exists lm, rest, lrs, lws. auto.
  - (* lock *)
    constructor; cbn [c_main c_jobs c_closed c_results c_workers]; auto.
    + eapply (share_worker m results jobs jobs) with (extra := []); eauto.
      intros l Hl. rewrite app_nil_r. exact Hl.
    + intros w Hw Hl. apply in_upd in Hw as [->|Hw]; [discriminate|eauto].
    + rewrite upd_length. exact Hlen.
    + pose proof (cnt_upd is_done ws i _ (WHold st buf) H) as E. cbn in E. lia.
    + pose proof (cnt_upd is_hold ws i _ (WHold st buf) H) as E. cbn in E.
      assert (E0 : cnt is_hold ws = 0).
      { unfold cnt. clear - H0. induction ws as [|w ws IH]; [reflexivity|]. cbn in *.
        apply orb_false_iff in H0 as (-> & H0). auto. }
      lia.
  - (* take *)
    constructor; cbn [c_main c_jobs c_closed c_results c_workers]; auto.
    + eapply (share_worker m results (x :: jobs) jobs) with (extra := [x]); eauto.
      intros l (Hl & Hno). exists l. auto.
    + intros w Hw Hl. apply in_upd in Hw as [->|Hw]; [discriminate|].
      destruct (Hlate w Hw Hl) as (_ & E); discriminate.
    + rewrite upd_length. exact Hlen.
    + pose proof (cnt_upd is_done ws i _ (WBusy st buf x) H) as E. cbn in E. lia.
    + pose proof (cnt_upd is_hold ws i _ (WBusy st buf x) H) as E. cbn in E. lia.
  - (* eof *)
    constructor; cbn [c_main c_jobs c_closed c_results c_workers]; auto.
    + eapply (share_worker m results [] []) with (extra := []); eauto.
      intros l Hl. rewrite app_nil_r. exact Hl.
    + rewrite upd_length. exact Hlen.
    + pose proof (cnt_upd is_done ws i _ (WSending st) H) as E. cbn in E. lia.
    + pose proof (cnt_upd is_hold ws i _ (WSending st) H) as E. cbn in E. lia.
  - (* work *)
    destruct (work_kinds st buf x) as (K1 & K2 & K3).
    constructor; cbn [c_main c_jobs c_closed c_results c_workers]; auto.
    + eapply (share_worker m results jobs jobs) with (extra := []); eauto.
      intros l Hl. apply work_good; exact Hl.
    + intros w Hw Hl. apply in_upd in Hw as [->|Hw]; [congruence|eauto].
    + rewrite upd_length. exact Hlen.
    + pose proof (cnt_upd is_done ws i _ (work tk st buf x) H) as E. rewrite K2 in E. cbn in E. lia.
    + pose proof (cnt_upd is_hold ws i _ (work tk st buf x) H) as E. rewrite K3 in E. cbn in E. lia.
  - (* result *)
    assert (Hin : In (WSending st) ws) by (eapply nth_error_In; exact H).
    destruct (Hlate _ Hin eq_refl) as (-> & ->).
    constructor; cbn [c_main c_jobs c_closed c_results c_workers]; auto.
    + destruct (Forall2_nth _ _ _ Hws i _ H) as (l & Hl & Hst).
      exists lm, rest, (lrs ++ [l]), (upd i (fun _ => []) lws).
      split; [exact Hm|]. split; [apply Forall2_app; auto|].
      split; [apply Forall2_upd; [exact Hws|reflexivity]|].
      rewrite <- Hp. apply Permutation_app_head, Permutation_app_head. cbn.
      rewrite concat_app. cbn. rewrite app_nil_r, <- app_assoc. apply Permutation_app_head.
      rewrite (concat_upd lws i l [] Hl). reflexivity.
    + rewrite upd_length. exact Hlen.
    + pose proof (cnt_upd is_done ws i _ WDone H) as E. cbn in E. rewrite app_length. cbn. lia.
    + pose proof (cnt_upd is_hold ws i _ WDone H) as E. cbn in E. lia.
Qed.

Lemma inv_steps c : steps ts tk init fails (start ts n samples) c -> inv c.
Proof.
  intros H. remember (start ts n samples) as c0. induction H; [subst; apply inv_start|].
  eapply inv_step; eauto.
Qed.

(** A returned result is that of all samples, none of which is empty. *)
Lemma inv_returned c st : inv c -> c_main c = MReturned st ->
  st = T init samples /\ ~ In [] samples /\ fails = false /\ c_results c = [] /\
  Forall (fun w => w = WDone) (c_workers c).
Proof.
  intros I E. destruct I as [(lm & rest & lrs & lws & Hm & Hres & Hws & Hp) Hlate Hcl Hlen Hb Hd Hh].
  rewrite E in *. destruct Hm as (Hno & -> & -> & Hf). cbn in Hd.
  pose proof (cnt_le is_done (c_workers c)) as Hle.
  assert (Hc : cnt is_done (c_workers c) = length (c_workers c)) by lia.
  assert (Hr0 : c_results c = []) by (apply length_zero_iff_nil; lia).
  apply cnt_all in Hc.
  assert (Hlws : concat lws = []).
  { clear - Hws Hc. induction Hws as [|w l ws lws Hw _ IH]; [reflexivity|].
    inversion Hc; subst. destruct w; try discriminate. cbn in Hw. subst l. cbn. auto. }
  assert (Hj : c_jobs c = []).
  { destruct (c_workers c) as [|w ws] eqn:Ew; [cbn in Hlen; lia|].
    inversion Hc; subst. destruct w; try discriminate.
    apply (Hlate WDone); [left; reflexivity|reflexivity]. }
  rewrite Hr0 in Hres. assert (lrs = []) as -> by (inversion Hres; reflexivity).
  rewrite Hlws, Hj in Hp. cbn in Hp. rewrite app_nil_r in Hp.
  split; [apply tally_perm; exact Hp|]. split.
  - intros Hin. apply Hno. apply (Permutation_in _ (Permutation_sym Hp)); exact Hin.
  - split; [exact Hf|]. split; [exact Hr0|]. rewrite Forall_forall in *. intros w Hw.
    specialize (Hc w Hw). destruct w; try discriminate; reflexivity.
Qed.

(** ** Progress *)
Lemma hold_or_not ws : existsb is_hold ws = false \/
  exists i st buf, nth_error ws i = Some (WHold st buf).
Proof.
  destruct (existsb is_hold ws) eqn:E; [right|left; reflexivity].
  apply existsb_exists in E as (w & Hw & E). apply In_nth_error in Hw as (i & Hi).
  destruct w; try discriminate. eauto.
Qed.

Lemma worker_can_step m jobs closed results ws i w :
  nth_error ws i = Some w -> is_over w = false ->
  (jobs <> [] \/ closed = true) ->
  exists c', step ts tk init fails (mkConfig m jobs closed results ws) c'.
Proof.
  intros Hi Ho Hj.
  assert (Hhold : forall k st buf, nth_error ws k = Some (WHold st buf) ->
            exists c', step ts tk init fails (mkConfig m jobs closed results ws) c').
  { intros k st buf Hk. destruct jobs as [|x jobs].
    - destruct Hj as [Hj| ->]; [congruence|]. eexists. eapply st_eof; exact Hk.
    - eexists. eapply st_take; exact Hk. }
  destruct w as [st buf|st buf|st buf x|st| |]; try discriminate.
  - destruct (hold_or_not ws) as [Hn0|(k & st' & buf' & Hk)]; [|eauto].
    eexists. eapply st_lock; eauto.
  - eauto.
  - eexists. eapply st_work; exact Hi.
  - eexists. eapply st_result; exact Hi.
Qed.

Lemma no_dead c : inv c -> ~ In [] samples -> ~ In WDead (c_workers c).
Proof.
  intros [(lm & rest & lrs & lws & Hm & Hres & Hws & Hp) _ _ _ _ _ _] Hs Hd.
  apply In_nth_error in Hd as (i & Hi). destruct (Forall2_nth _ _ _ Hws i _ Hi) as (l & Hl & Hin).
  apply Hs. apply (Permutation_in _ Hp). rewrite !in_app_iff. do 4 right.
  apply in_concat. exists l. split; [eapply nth_error_In; exact Hl|exact Hin].
Qed.

Lemma progress c : inv c -> ~ In [] samples -> ~ final c ->
  exists c', step ts tk init fails c c'.
Proof.
  intros I Hs Hf. pose proof (no_dead c I Hs) as Hdead.
  destruct I as [(lm & rest & lrs & lws & Hm & Hres & Hws & Hp) Hlate Hcl Hlen Hb Hd Hh].
  destruct c as [m jobs closed results ws]; cbn in *.
  assert (Hover : forall w, In w ws -> is_done w = false -> is_over w = false).
  { intros [] Hw Hx; try reflexivity; try discriminate. contradiction. }
  destruct m as [[|x r]|k st|k st|st| |]; cbn in *.
  - destruct fails eqn:Ef; eexists; [eapply st_sampler_panic|eapply st_close]; reflexivity.
  - subst closed. destruct (Nat.lt_ge_cases (length jobs) 4) as [Hj|Hj].
    + eexists. apply st_send; exact Hj.
    + destruct ws as [|w ws]; [cbn in Hlen; lia|].
      apply (worker_can_step (MSend (x :: r)) jobs false results (w :: ws) 0 w eq_refl).
      * apply Hover; [left; reflexivity|]. destruct w; try reflexivity.
        destruct (Hlate WDone (or_introl eq_refl) eq_refl); discriminate.
      * left. destruct jobs; [cbn in Hj; lia|discriminate].
  - destruct k as [|k]; [eexists; apply st_received|].
    destruct results as [|r results].
    + destruct (cnt_not_all is_done ws) as (i & w & Hi & Hw); [cbn in Hd; lia|].
      apply (worker_can_step (MRecv (S k) st) jobs closed [] ws i w Hi); [|right; auto].
      apply Hover; [eapply nth_error_In; exact Hi|exact Hw].
    + inversion Hres as [|? lr ? lrs' (-> & Hlr) Hres']; subst.
      destruct Hm as (Hno & -> & -> & _). eexists. eapply st_merge.
      apply (merge_eq ts); apply tally_matches; assumption.
  - destruct k as [|k]; [eexists; apply st_return|].
    assert (E : cnt is_done ws = length ws) by (pose proof (cnt_le is_done ws); lia).
    apply cnt_all in E. rewrite Forall_forall in E.
    destruct (nth_error ws k) as [w|] eqn:Ew; [|apply nth_error_None in Ew; lia].
    specialize (E w (nth_error_In _ _ Ew)). destruct w; try discriminate.
    eexists. eapply st_join; exact Ew.
  - exfalso; apply Hf; exact I.
  - destruct (forallb is_over ws) eqn:Eo; [eexists; apply st_unwound; exact Eo|].
    assert (Hex : exists i w, nth_error ws i = Some w /\ is_over w = false).
    { clear - Eo. induction ws as [|w ws IH]; [discriminate|]. cbn in Eo.
      destruct (is_over w) eqn:E; [|exists 0, w; auto]. cbn in Eo.
      destruct (IH Eo) as (i & w' & Hi & Hw). exists (S i), w'; auto. }
    destruct Hex as (i & w & Hi & Hw).
    apply (worker_can_step MUnwinding jobs closed results ws i w Hi Hw). right; auto.
  - exfalso; apply Hf; exact I.
Qed.

End Par.

(** ** Termination *)
Section Termination.
Variables (ts : tokenset) (tk : tokenizer) (init : option nat) (fails : bool).

Definition w_weight (w : worker) : nat :=
  match w with
  | WIdle _ _ => 4 | WHold _ _ => 3 | WBusy _ _ _ => 5 | WSending _ => 2 | WDone => 0 | WDead => 0
  end.
Definition m_weight (k : nat) (m : main) : nat :=
  match m with
  | MSend rest => 5 * length rest + k + 4
  | MRecv _ _ => k + 3
  | MJoin j _ => j + 2
  | MUnwinding => 1
  | MReturned _ | MPanicked => 0
  end.
Definition measure (c : config) : nat :=
  m_weight (length (c_workers c)) (c_main c) + 4 * length (c_jobs c) + length (c_results c)
  + sum (map w_weight (c_workers c)).

Lemma sum_upd ws i w w' : nth_error ws i = Some w ->
  sum (map w_weight (upd i (fun _ => w') ws)) + w_weight w = sum (map w_weight ws) + w_weight w'.
Proof.
  revert i; induction ws as [|x ws IH]; intros [|i] H; cbn in *; try discriminate.
  - injection H as ->. fold (sum (map w_weight ws)). lia.
  - specialize (IH i H). unfold sum in *. lia.
Qed.

Lemma work_weight st buf x : w_weight (work tk st buf x) < 5.
Proof. unfold work. destruct (_ <- assert_that _ ;; _) as [[s b]| |]; cbn; lia. Qed.

Lemma step_measure c c' : step ts tk init fails c c' -> measure c' < measure c.
Proof.
  intros S. destruct S; unfold measure; cbn [c_main c_jobs c_closed c_results c_workers m_weight];
    rewrite ?upd_length, ?app_length; cbn [length];
    try (match goal with H : nth_error _ _ = Some ?w |- context [upd _ (fun _ => ?w') _] =>
           pose proof (sum_upd _ _ _ w' H) as E; cbn [w_weight] in E end);
    try lia.
  pose proof (work_weight st buf x). lia.
Qed.

Lemma run_bounded c c' : steps ts tk init fails c c' -> measure c' <= measure c.
Proof. induction 1; [lia|]. apply step_measure in H0. lia. Qed.

End Termination.
