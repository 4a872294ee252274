(** * Property C71: machine arithmetic does not change the statistics. *)
From Verif Require Import Base BaseLemmas TokenSetModel TokenizerModel TokSpec TokenizerProof1 TokenizerProof2 TokenizerTheory TokenSetProof
  PropTokenizer StatsAlgebra BatchModel PropJson Shaped OverflowModel OptBytesModel OptimizeModel TokenSetProof2 PropTokenSet OptimizeProof1 OptimizeProof2 OptimizeProof6 PropOptimize.

Section Wrap.
Variable M : nat.
Local Notation wadd := (wadd M).

Lemma wadd_small a b : a + b < M -> wadd a b = a + b.
Proof. intros H. apply Nat.mod_small. exact H. Qed.
Lemma wmul_small a b : a * b < M -> wmul M a b = a * b.
Proof. intros H. apply Nat.mod_small. exact H. Qed.

Definition small (l : list nat) : Prop := Forall (fun x => x < M) l.

Lemma upd_w (f g : nat -> nat) : (forall x, f x < M -> g x = f x) -> forall i l, small (upd i f l) -> upd i g l = upd i f l.
Proof.
  intros H i l. revert i. induction l as [|x l IH]; intros [|i] S; cbn [upd] in *; inversion S; subst; [reflexivity..| |].
  - rewrite H by assumption. reflexivity.
  - rewrite IH by assumption. reflexivity.
Qed.
Lemma idx_upd_w (f g : nat -> nat) l i r : (forall x, f x < M -> g x = f x) -> idx_upd l i f = Ret r -> small r -> idx_upd l i g = Ret r.
Proof.
  intros H E S. apply idx_upd_ret in E as (Hi & ->). apply idx_upd_ret. split; [exact Hi|]. symmetry. apply upd_w; assumption.
Qed.

Lemma upd_mono (f : nat -> nat) : (forall x, x <= f x) -> forall i l, Forall2 le l (upd i f l).
Proof.
  intros H i l. revert i. induction l as [|x l IH]; intros [|i]; cbn [upd]; [constructor..| |].
  - constructor; [apply H|]. clear. induction l; constructor; auto.
  - constructor; [apply le_n|apply IH].
Qed.
Lemma idx_upd_mono (f : nat -> nat) l i r : (forall x, x <= f x) -> idx_upd l i f = Ret r -> Forall2 le l r.
Proof. intros H E. apply idx_upd_ret in E as (_ & ->). apply upd_mono. exact H. Qed.
Lemma le_all_refl (l : list nat) : Forall2 le l l.
Proof. induction l; constructor; auto. Qed.
Lemma le_all_trans (a b c : list nat) : Forall2 le a b -> Forall2 le b c -> Forall2 le a c.
Proof.
  intros H. revert c. induction H as [|x y a b H1 H2 IH]; intros c Hc; inversion Hc; subst; [constructor|].
  constructor; [lia|apply IH; assumption].
Qed.
Lemma small_mono a b : Forall2 le a b -> small b -> small a.
Proof. intros H. induction H as [|x y a b H1 H2 IH]; intros S; [constructor|]. inversion S; subst. constructor; [lia|apply IH; assumption]. Qed.

(** ** The counting loop *)
Lemma tokens_mono count l : forall (tc tc' : list nat), mfold (fun tc t => idx_upd tc t (fun x => x + count)) l tc = Ret tc' -> Forall2 le tc tc'.
Proof.
  induction l as [|t l IH]; intros tc tc' E; cbn [mfold] in E; [injection E as <-; apply le_all_refl|].
  apply bind_ret in E as (tc1 & E1 & E). eapply le_all_trans; [eapply idx_upd_mono; [|exact E1]; intros x; apply Nat.le_add_r|apply IH; exact E].
Qed.
Lemma tokens_w count l : forall (tc tc' : list nat), mfold (fun tc t => idx_upd tc t (fun x => x + count)) l tc = Ret tc' -> small tc' ->
  mfold (fun tc t => idx_upd tc t (fun x => wadd x count)) l tc = Ret tc'.
Proof.
  induction l as [|t l IH]; intros tc tc' E S; cbn [mfold] in *; [exact E|].
  apply bind_ret in E as (tc1 & E1 & E).
  rewrite (idx_upd_w _ (fun x => wadd x count) _ _ _ (fun x => wadd_small x count) E1) by (eapply small_mono; [eapply tokens_mono; exact E|exact S]).
  cbn [bind]. apply IH; assumption.
Qed.

Lemma count_span_mono stok st p st' : count_span stok st p = Ret st' -> Forall2 le (fst st) (fst st') /\ Forall2 le (snd st) (snd st').
Proof.
  destruct st as (tc, sc), p as (sp, count). cbn [count_span fst snd]. destruct (sp_content sp) as [|t|q]; [discriminate| |]; intros E.
  - apply bind_ret in E as (tc' & E1 & E). injection E as <-. cbn [fst snd]. split; [eapply idx_upd_mono; [|exact E1]; intros x; apply Nat.le_add_r|apply le_all_refl].
  - apply bind_ret in E as (sc' & E1 & E). apply bind_ret in E as (sq & _ & E). apply bind_ret in E as (tc' & E2 & E). injection E as <-. cbn [fst snd].
    split; [eapply tokens_mono; exact E2|eapply idx_upd_mono; [|exact E1]; intros x; apply Nat.le_add_r].
Qed.
Lemma counting_mono stok l : forall st st', mfold (count_span stok) l st = Ret st' -> Forall2 le (fst st) (fst st') /\ Forall2 le (snd st) (snd st').
Proof.
  induction l as [|p l IH]; intros st st' E; cbn [mfold] in E; [injection E as <-; split; apply le_all_refl|].
  apply bind_ret in E as (st1 & E1 & E). apply count_span_mono in E1. apply IH in E. split; eapply le_all_trans; [apply E1|apply E|apply E1|apply E].
Qed.
Lemma counting_w stok l : forall st st', mfold (count_span stok) l st = Ret st' -> small (fst st') -> small (snd st') ->
  mfold (wcount_span M stok) l st = Ret st'.
Proof.
  induction l as [|p l IH]; intros st st' E S1 S2; cbn [mfold] in *; [exact E|].
  apply bind_ret in E as (st1 & E1 & E). destruct (counting_mono _ _ _ _ E) as (M1 & M2).
  apply (small_mono _ _ M1) in S1 as T1. apply (small_mono _ _ M2) in S2 as T2.
  assert (W : wcount_span M stok st p = Ret st1).
  { destruct st as (tc, sc), p as (sp, count). cbn [count_span wcount_span] in *. destruct (sp_content sp) as [|t|q]; [discriminate| |].
    - apply bind_ret in E1 as (tc' & E1 & E2). injection E2 as <-. cbn [fst snd] in *.
      rewrite (idx_upd_w _ (fun x => wadd x count) _ _ _ (fun x => wadd_small x count) E1 T1). reflexivity.
    - apply bind_ret in E1 as (sc' & E1 & E2). apply bind_ret in E2 as (sq & Eq & E2). apply bind_ret in E2 as (tc' & E2 & E3). injection E3 as <-. cbn [fst snd] in *.
      rewrite (idx_upd_w _ (fun x => wadd x count) _ _ _ (fun x => wadd_small x count) E1 T2). cbn [bind]. rewrite Eq. cbn [bind].
      rewrite (tokens_w _ _ _ _ E2 T1). reflexivity. }
  rewrite W. cbn [bind]. apply IH; assumption.
Qed.

(** ** The back-trace *)
Lemma upd_bound a i l : Forall (fun x => x <= a) l -> Forall (fun x => x <= S a) (upd i S l).
Proof.
  intros H. revert i. induction H as [|x l Hx H IH]; intros [|i]; cbn [upd]; [constructor..| |].
  - constructor; [lia|]. revert H. apply Forall_impl. intros; lia.
  - constructor; [lia|apply IH].
Qed.
Lemma bound_up a b l : a <= b -> Forall (fun x : nat => x <= a) l -> Forall (fun x => x <= b) l.
Proof. intros H. apply Forall_impl. intros; lia. Qed.
Lemma bound_small a l : a < M -> Forall (fun x : nat => x <= a) l -> small l.
Proof. intros H. apply Forall_impl. intros; lia. Qed.

Lemma S_w : forall x, S x < M -> wadd 1 x = S x.
Proof. intros x H. apply wadd_small. exact H. Qed.

Lemma back_trace_w tk ntok cs fuel : forall pos next sc pairs sc' pairs' a b,
  back_trace fuel tk ntok cs pos next sc pairs = Ret (sc', pairs') ->
  Forall (fun x => x <= a) sc -> Forall (fun x => x <= b) pairs -> a + fuel < M -> b + fuel < M -> length pairs <= M ->
  wback_trace M fuel tk ntok cs pos next sc pairs = Ret (sc', pairs') /\
  Forall (fun x => x <= a + fuel) sc' /\ Forall (fun x => x <= b + fuel) pairs'.
Proof.
  induction fuel as [|fuel IH]; intros pos next sc pairs sc' pairs' a b E Ha Hb Hma Hmb Hl; cbn [back_trace wback_trace] in *.
  - destruct (pos =? 0); [|discriminate]. rewrite !Nat.add_0_r. injection E as <- <-. auto.
  - destruct (pos =? 0).
    { injection E as <- <-. split; [reflexivity|]. split; [eapply bound_up; [|exact Ha]|eapply bound_up; [|exact Hb]]; lia. }
    apply bind_ret in E as (c & Ec & E). rewrite Ec. cbn [bind].
    apply bind_ret in E as (sc1 & E1 & E).
    assert (B1 : Forall (fun x => x <= S a) sc1) by (apply idx_upd_ret in E1 as (_ & ->); apply upd_bound; exact Ha).
    assert (S1 : small sc1) by (eapply bound_small; [|exact B1]; lia).
    rewrite (idx_upd_w _ (wadd 1) _ _ _ S_w E1 S1). cbn [bind].
    apply bind_ret in E as (sp & Es & E). rewrite Es. cbn [bind].
    apply bind_ret in E as ((next1 & ps1) & E2 & E). apply bind_ret in E as (pos1 & Ep & E).
    match goal with |- context [bind ?X _] => assert (G : X = Ret (next1, ps1) /\ Forall (fun x => x <= S b) ps1 /\ length ps1 = length pairs) end.
    { assert (G0 : Forall (fun x => x <= S b) pairs) by (eapply bound_up; [|exact Hb]; lia).
      destruct (sp_content sp) as [|t|q]; [injection E2 as <- <-; auto| |injection E2 as <- <-; auto].
      destruct next as [nx|]; [|injection E2 as <- <-; auto].
      apply bind_ret in E2 as (ps & E2 & E3). injection E3 as <- <-. apply idx_upd_ret in E2 as Hx. destruct Hx as (Hx & Hps).
      rewrite wmul_small by lia. rewrite wadd_small by lia.
      assert (B2 : Forall (fun x => x <= S b) ps) by (rewrite Hps; apply upd_bound; exact Hb).
      rewrite (idx_upd_w _ (wadd 1) _ _ _ S_w E2) by (eapply bound_small; [|exact B2]; lia).
      split; [reflexivity|]. split; [exact B2|]. rewrite Hps, upd_length. reflexivity. }
    destruct G as (-> & B2 & L2). cbn [bind]. rewrite Ep. cbn [bind].
    destruct (IH _ _ _ _ _ _ (S a) (S b) E B1 B2) as (G1 & G2 & G3); [lia..|].
    split; [exact G1|]. replace (a + S fuel) with (S a + fuel) by lia. replace (b + S fuel) with (S b + fuel) by lia. auto.
Qed.

(** ** The scan *)
Section Scan.
Variables (ts : tokenset) (tk : tokenizer) (K : nat).
Hypothesis Htk : tokenizer_new ts = Ret tk.
Hypothesis Hr : seqs_in_range ts.
Hypothesis HK : 1 <= K.
Hypothesis Hseq : forall q, In q (sequences ts) -> length (seq_tokens q) <= K.

Lemma piece_cost p : length (piece_tokens ts p) <= K.
Proof.
  destruct p as [i|i]; cbn; [exact HK|]. destruct (nth_error (sequences ts) i) as [q|] eqn:E; [|cbn; lia].
  apply Hseq. eapply nth_error_In; exact E.
Qed.

Lemma Hus : usable ts.
Proof. apply C01_tokenizer_exists_iff_usable. eauto. Qed.

Lemma piece_nonempty p s : piece_string ts p = Some s -> 1 <= length s.
Proof.
  intros E. destruct s as [|b s]; [|cbn; lia]. exfalso. destruct Hus as (_ & Hn & _). apply Hn. unfold strings. apply in_app_iff.
  destruct p as [i|i]; cbn in E.
  - left. destruct (nth_error (tokens ts) i) as [[x|x]|] eqn:Ei; try discriminate. injection E as ->.
    apply in_flat_map. exists (Str []). split; [eapply nth_error_In; exact Ei|left; reflexivity].
  - right. destruct (nth_error (sequences ts) i) as [q|] eqn:Ei; [|discriminate]. cbn in E. injection E as <-.
    apply in_map. eapply nth_error_In; exact Ei.
Qed.

Lemma pieces_bound ps text : segments ts ps text -> length ps <= length text /\ length (stream ts ps) <= K * length text.
Proof.
  induction 1 as [|p ps s r Hp _ (IH1 & IH2)]; [cbn; lia|].
  pose proof (piece_nonempty _ _ Hp). pose proof (piece_cost p). cbn [length stream flat_map]. rewrite !app_length.
  change (flat_map (piece_tokens ts) ps) with (stream ts ps). split; [lia|].
  rewrite Nat.mul_add_distr_l. assert (K * 1 <= K * length s) by (apply Nat.mul_le_mono_l; lia). lia.
Qed.

Lemma tkok : tk_ok ts tk.
Proof. apply tokenizer_new_ok; exact Htk. Qed.

Lemma span_cost i sp : nth_error (tk_spans tk) i = Some sp -> 0 < i -> sp_cost sp <= K * length (sp_string sp).
Proof.
  intros H Hi. destruct (tk_good _ _ tkok _ _ H Hi) as (p & _ & Hp & ->).
  pose proof (piece_nonempty _ _ Hp). pose proof (piece_cost p). assert (K * 1 <= K * length (sp_string sp)) by (apply Nat.mul_le_mono_l; lia). lia.
Qed.

Definition costs_ok (cs : list cost_state) : Prop := forall k c, nth_error cs k = Some c -> cs_cost c <= K * k.

Lemma best_span_w cs fuel : costs_ok cs -> K * length cs < M -> forall i best r,
  best_span fuel (tk_spans tk) cs i best = Ret r -> (forall b, best = Some b -> cs_cost b <= K * length cs) ->
  wbest_span M fuel (tk_spans tk) cs i best = Ret r /\ (forall b, r = Some b -> cs_cost b <= K * length cs).
Proof.
  intros Hok HM. induction fuel as [|fuel IH]; intros i best r E Hb; cbn [best_span wbest_span] in *.
  - destruct (i =? 0); [|discriminate]. injection E as <-. auto.
  - destruct (Nat.eqb_spec i 0) as [Hi|Hi]; [injection E as <-; auto|].
    apply bind_ret in E as (sp & Es & E). rewrite Es. cbn [bind]. apply bind_ret in E as (k & Ek & E). rewrite Ek. cbn [bind].
    apply bind_ret in E as (prev & Ep & E). rewrite Ep. cbn [bind].
    assert (Hs : nth_error (tk_spans tk) i = Some sp) by (unfold idx in Es; destruct (nth_error (tk_spans tk) i); [injection Es as ->; reflexivity|discriminate]).
    assert (Hp : nth_error cs k = Some prev) by (unfold idx in Ep; destruct (nth_error cs k); [injection Ep as ->; reflexivity|discriminate]).
    assert (Hk : k = length cs - length (sp_string sp) /\ length (sp_string sp) <= length cs).
    { unfold checked_sub in Ek. destruct (Nat.leb_spec (length (sp_string sp)) (length cs)); [|discriminate]. injection Ek as <-. auto. }
    assert (Hc : cs_cost prev + sp_cost sp <= K * length cs).
    { pose proof (Hok _ _ Hp). pose proof (span_cost _ _ Hs (proj1 (Nat.neq_0_lt_0 i) Hi)). destruct Hk as (-> & Hk).
      replace (length cs) with ((length cs - length (sp_string sp)) + length (sp_string sp)) at 1 by lia.
      rewrite Nat.mul_add_distr_l. lia. }
    rewrite wadd_small by lia. cbv zeta in E. apply IH; [exact E|].
    intros b Eb. destruct best as [b0|].
    + destruct (cs_cost prev + sp_cost sp <? cs_cost b0); [injection Eb as <-; exact Hc|]. injection Eb as <-. apply Hb. reflexivity.
    + injection Eb as <-. exact Hc.
Qed.

Lemma scan_byte_w j cs b j' cs' : scan_byte tk (j, cs) b = Ret (j', cs') -> costs_ok cs -> K * length cs < M ->
  wscan_byte M tk (j, cs) b = Ret (j', cs') /\ costs_ok cs' /\ length cs' = S (length cs).
Proof.
  intros E Hok HM. cbn [scan_byte wscan_byte] in *.
  apply bind_ret in E as (st & E1 & E). rewrite E1. cbn [bind]. apply bind_ret in E as (nx & E2 & E). rewrite E2. cbn [bind].
  apply bind_ret in E as (st' & E3 & E). rewrite E3. cbn [bind]. apply bind_ret in E as (best & E4 & E).
  destruct (best_span_w cs (length cs) Hok HM _ _ _ E4) as (-> & Hb); [discriminate|]. cbn [bind].
  apply bind_ret in E as (c & E5 & E). rewrite E5. cbn [bind]. injection E as <- <-. split; [reflexivity|].
  split; [|rewrite app_length; cbn; lia]. intros k d Hd.
  destruct (Nat.lt_ge_cases k (length cs)) as [Hk|Hk].
  - rewrite nth_error_app1 in Hd by exact Hk. apply Hok. exact Hd.
  - rewrite nth_error_app2 in Hd by exact Hk. destruct (k - length cs) as [|z] eqn:Ez; [|destruct z; discriminate].
    cbn in Hd. injection Hd as <-. replace k with (length cs) by lia. apply Hb. destruct best as [x|]; [|discriminate]. injection E5 as ->. reflexivity.
Qed.

Lemma scan_all_w x : forall j cs j' cs', mfold (scan_byte tk) x (j, cs) = Ret (j', cs') -> costs_ok cs -> K * (length cs + length x - 1) < M -> 1 <= length cs ->
  mfold (wscan_byte M tk) x (j, cs) = Ret (j', cs') /\ costs_ok cs' /\ length cs' = length cs + length x.
Proof.
  induction x as [|b x IH]; intros j cs j' cs' E Hok HM Hl; cbn [mfold] in *.
  - injection E as <- <-. cbn. split; [reflexivity|]. split; [exact Hok|lia].
  - apply bind_ret in E as ((j1 & cs1) & E1 & E). cbn [length] in HM.
    assert (K * length cs <= K * (length cs + S (length x) - 1)) by (apply Nat.mul_le_mono_l; lia).
    destruct (scan_byte_w _ _ _ _ _ E1 Hok) as (-> & Hok1 & L1); [lia|]. cbn [bind].
    destruct (IH _ _ _ _ E Hok1) as (-> & Hok2 & L2); [|lia|].
    + rewrite L1. replace (S (length cs) + length x - 1) with (length cs + S (length x) - 1) by lia. exact HM.
    + split; [reflexivity|]. split; [exact Hok2|]. cbn [length]. lia.
Qed.

(** ** One sample *)
(** Bounds for the statistics of [n] scanned bytes *)
Record in_bounds (n : nat) (s : stats) : Prop := {
  ib_total : total_tokens s <= K * n;
  ib_scanned : scanned_bytes s <= n;
  ib_tokens : Forall (fun x => x <= K * n) (token_counts s);
  ib_seqs : Forall (fun x => x <= n) (seq_counts s);
  ib_pairs : Forall (fun x => x <= n) (pair_counts s)
}.

Lemma forall_nth (P : nat -> Prop) l : (forall i, i < length l -> P (nth i l 0)) -> Forall P l.
Proof.
  intros H. apply Forall_forall. intros x Hx. apply In_nth with (d := 0) in Hx as (i & Hi & <-). apply H. exact Hi.
Qed.
Lemma nth_forall (P : nat -> Prop) l i : P 0 -> Forall P l -> P (nth i l 0).
Proof.
  intros H0 H. destruct (Nat.lt_ge_cases i (length l)) as [Hi|Hi]; [|rewrite nth_overflow by exact Hi; exact H0].
  rewrite Forall_forall in H. apply H, nth_In. exact Hi.
Qed.
Lemma count_occ_length {A} (dec : forall x y : A, {x = y} + {x <> y}) l x : count_occ dec l x <= length l.
Proof. induction l as [|y l IH]; cbn; [lia|]. destruct (dec y x); lia. Qed.
Lemma adj_length i j ps : adj i j ps <= length ps.
Proof.
  induction ps as [|p ps IH]; [cbn; lia|]. cbn [adj length].
  assert (match p with PTok a => match ps with PTok b :: _ => if (a =? i) && (b =? j) then 1 else 0 | _ => 0 end | PSeq _ => 0 end <= 1).
  { destruct p as [a|]; [|lia]. destruct ps as [|[b|] ps]; try lia. destruct (_ && _); lia. }
  lia.
Qed.

Lemma counted_bounds n ps x s s' : matches ts s -> in_bounds n s -> segments ts ps x -> counted ts ps x s s' -> in_bounds (n + length x) s'.
Proof.
  intros (_ & Mt & Ms & Mp) [B1 B2 B3 B4 B5] Hs C. destruct (pieces_bound _ _ Hs) as (L1 & L2).
  destruct (counted_matches _ _ _ _ _ C) as (_ & Nt & Ns & Np).
  split; rewrite ?Nat.mul_add_distr_l.
  - rewrite (counted_total _ _ _ _ _ C). lia.
  - rewrite (counted_scanned _ _ _ _ _ C). lia.
  - apply forall_nth. intros i _. rewrite (counted_tokens _ _ _ _ _ C).
    pose proof (nth_forall (fun x => x <= K * n) _ i (Nat.le_0_l _) B3) as G. cbv beta in G.
    pose proof (count_occ_length Nat.eq_dec (stream ts ps) i). lia.
  - apply forall_nth. intros i _. rewrite (counted_seqs _ _ _ _ _ C).
    pose proof (nth_forall (fun x => x <= n) _ i (Nat.le_0_l _) B4) as G. cbv beta in G.
    pose proof (count_occ_length piece_eq_dec ps (PSeq i)). lia.
  - apply forall_nth. intros i Hi. rewrite Np in Hi. set (N := ntokens ts) in *.
    assert (HN : N <> 0) by (intros E; rewrite E in Hi; lia).
    assert (Hq : i / N < N) by (apply Nat.div_lt_upper_bound; [exact HN|exact Hi]).
    assert (Hm : i mod N < N) by (apply Nat.mod_upper_bound; exact HN).
    assert (Ei : i = i / N * N + i mod N) by (rewrite Nat.mul_comm; apply Nat.div_mod; exact HN).
    rewrite Ei. unfold N in *. rewrite (counted_pairs _ _ _ _ _ C) by assumption. rewrite <- Ei.
    pose proof (nth_forall (fun x => x <= n) _ i (Nat.le_0_l _) B5) as G. cbv beta in G.
    pose proof (adj_length (i / ntokens ts) (i mod ntokens ts) ps). lia.
Qed.

Lemma slice_w n x s buffer : matches ts s -> in_bounds n s -> K * (n + length x) < M -> ntokens ts * ntokens ts <= M ->
  wprocess_slice M tk x s buffer = process_slice tk x s buffer /\
  exists s' buffer', process_slice tk x s buffer = Ret (s', buffer') /\ matches ts s' /\ in_bounds (n + length x) s'.
Proof.
  intros Hm Hb HM HN. destruct (tokenization_correct ts tk x Htk Hr) as (ps & cs & (Hs & _) & Hall).
  destruct (Hall s buffer Hm) as (s' & E & C).
  assert (Hn : n + length x <= K * (n + length x)) by (rewrite <- (Nat.mul_1_l (n + length x)) at 1; apply Nat.mul_le_mono_r; exact HK).
  assert (Hx : K * length x <= K * (n + length x)) by (apply Nat.mul_le_mono_l; lia).
  pose proof (counted_bounds n ps x s s' Hm Hb Hs C) as B. split; [|exists s', cs; split; [exact E|]; split; [apply (counted_matches _ _ _ _ _ C)|exact B]].
  rewrite E. unfold process_slice in E. unfold wprocess_slice. cbn [firstn app] in *.
  apply bind_ret in E as ((j & cs1) & E1 & E). apply bind_ret in E as (s1 & E2 & E). injection E as -> ->.
  assert (O : costs_ok [mkCost 0 0]) by (intros [|k] c Hc; [injection Hc as <-; cbn; lia|destruct k; discriminate]).
  destruct (scan_all_w _ _ _ _ _ E1 O) as (-> & Hok & Lc); [cbn [length]; lia|cbn; lia|]. cbn [bind].
  unfold update_stats in E2. unfold wupdate_stats.
  apply bind_ret in E2 as (lst & E3 & E2). rewrite E3. cbn [bind]. cbv zeta in *.
  apply bind_ret in E2 as ((sc & pairs) & E4 & E2).
  destruct Hm as (Hts & Mt & Ms & Mp). destruct Hb as [B1 B2 B3 B4 B5].
  destruct (back_trace_w _ _ _ _ _ _ _ _ _ _ 0 n E4) as (-> & _ & _).
  { apply Forall_forall. intros y Hy. apply repeat_spec in Hy. lia. }
  { exact B5. } { lia. } { lia. } { rewrite Mp. exact HN. }
  cbn [bind]. apply bind_ret in E2 as ((tc & sq) & E5 & E2).
  assert (Es : s' = mkStats (st_token_set s) (total_tokens s + cs_cost lst) (initial_size s) (scanned_bytes s + length x) tc sq pairs) by congruence.
  destruct B as [C1 C2 C3 C4 C5]. rewrite Es in C1, C2, C3, C4. cbn in C1, C2, C3, C4.
  assert (S3 : small tc) by (eapply bound_small; [|exact C3]; lia).
  assert (S4 : small sq) by (eapply bound_small; [|exact C4]; lia).
  rewrite (counting_w _ _ _ _ E5 S3 S4). cbn [bind]. rewrite !wadd_small by lia. rewrite Es. reflexivity.
Qed.

Lemma all_w l : forall n s b, matches ts s -> in_bounds n s -> K * (n + length (concat l)) < M -> ntokens ts * ntokens ts <= M ->
  wprocess_all M tk l (s, b) = process_all tk l (s, b) /\
  exists s' b', process_all tk l (s, b) = Ret (s', b') /\ matches ts s' /\ in_bounds (n + length (concat l)) s'.
Proof.
  unfold wprocess_all, process_all. induction l as [|x l IH]; intros n s b Hm Hb HM HN.
  - cbn. split; [reflexivity|]. exists s, b. rewrite Nat.add_0_r. auto.
  - cbn [mfold concat] in *. rewrite app_length in *.
    assert (K * (n + length x) <= K * (n + (length x + length (concat l)))) by (apply Nat.mul_le_mono_l; lia).
    destruct (slice_w n x s b Hm Hb) as (-> & s1 & b1 & -> & Hm1 & Hb1); [lia|exact HN|]. cbn [bind].
    rewrite Nat.add_assoc in *. apply IH; assumption.
Qed.

Lemma new_bounds init : in_bounds 0 (stats_new ts init).
Proof.
  split; cbn; try lia; apply Forall_forall; intros y Hy; apply repeat_spec in Hy; subst; lia.
Qed.

Lemma add_counts_w (a b : list nat) x y : Forall (fun c => c <= x) a -> Forall (fun c => c <= y) b -> x + y < M ->
  wadd_counts M a b = add_counts a b.
Proof.
  intros Ha. revert b. induction Ha as [|c a Hc Ha IH]; intros b Hb H; [reflexivity|].
  destruct Hb as [|d b Hd Hb]; [reflexivity|]. cbn [wadd_counts add_counts]. rewrite IH by assumption. rewrite wadd_small by lia. reflexivity.
Qed.

Lemma merge_w n m a b : in_bounds n a -> in_bounds m b -> K * (n + m) < M -> wmerge M a b = merge a b.
Proof.
  intros [A1 A2 A3 A4 A5] [B1 B2 B3 B4 B5] HM.
  assert (Hn : n + m <= K * (n + m)) by (rewrite <- (Nat.mul_1_l (n + m)) at 1; apply Nat.mul_le_mono_r; exact HK).
  rewrite Nat.mul_add_distr_l in HM, Hn. unfold wmerge, merge.
  rewrite (add_counts_w _ _ _ _ A3 B3) by exact HM. rewrite (add_counts_w _ _ _ _ A4 B4), (add_counts_w _ _ _ _ A5 B5) by lia.
  rewrite !wadd_small by lia. reflexivity.
Qed.
End Scan.
End Wrap.

(** ** C71

    [M] is 2^64 in the program.  [K]: no sequence has more than [K] tokens. *)
Theorem C71_counters_do_not_overflow : forall M K ts tk init buffer samples,
  tokenizer_new ts = Ret tk -> seqs_in_range ts ->
  1 <= K -> (forall q, In q (sequences ts) -> length (seq_tokens q) <= K) ->
  K * length (concat samples) < M -> ntokens ts * ntokens ts <= M ->
  wprocess_all M tk samples (stats_new ts init, buffer) = process_all tk samples (stats_new ts init, buffer) /\
  forall s buffer', process_all tk samples (stats_new ts init, buffer) = Ret (s, buffer') ->
    total_tokens s < M /\ scanned_bytes s < M /\
    Forall (fun c => c < M) (token_counts s) /\ Forall (fun c => c < M) (seq_counts s) /\ Forall (fun c => c < M) (pair_counts s).
Proof.
  intros M K ts tk init buffer samples Htk Hr HK Hq HM HN.
  destruct (all_w M ts tk K Htk Hr HK Hq samples 0 (stats_new ts init) buffer (matches_new ts init) (new_bounds ts K HK init) HM HN)
    as (E & s' & b' & E' & _ & [B1 B2 B3 B4 B5]). cbn [Nat.add] in *.
  split; [exact E|]. intros s buffer' Es. rewrite E' in Es. assert (s = s') as -> by congruence.
  assert (Hn : length (concat samples) <= K * length (concat samples)) by (rewrite <- (Nat.mul_1_l (length (concat samples))) at 1; apply Nat.mul_le_mono_r; exact HK).
  split; [lia|]. split; [lia|].
  split; [|split]; eapply Forall_impl; [|exact B3| |exact B4| |exact B5]; cbv beta; intros; lia.
Qed.

(** Merging the statistics of two parts of the data; by C11 the statistics merged so
    far are always those of tokenizing some of the samples. *)
Theorem C71_merging_does_not_overflow : forall M K ts tk init1 init2 b1 b2 l1 l2 s1 s2 b1' b2',
  tokenizer_new ts = Ret tk -> seqs_in_range ts ->
  1 <= K -> (forall q, In q (sequences ts) -> length (seq_tokens q) <= K) ->
  K * (length (concat l1) + length (concat l2)) < M -> ntokens ts * ntokens ts <= M ->
  process_all tk l1 (stats_new ts init1, b1) = Ret (s1, b1') -> process_all tk l2 (stats_new ts init2, b2) = Ret (s2, b2') ->
  wmerge M s1 s2 = merge s1 s2.
Proof.
  intros M K ts tk init1 init2 b1 b2 l1 l2 s1 s2 b1' b2' Htk Hr HK Hq HM HN E1 E2.
  assert (H1 : K * length (concat l1) < M) by (rewrite Nat.mul_add_distr_l in HM; lia).
  assert (H2 : K * length (concat l2) < M) by (rewrite Nat.mul_add_distr_l in HM; lia).
  destruct (all_w M ts tk K Htk Hr HK Hq l1 0 (stats_new ts init1) b1 (matches_new ts init1) (new_bounds ts K HK init1) H1 HN)
    as (_ & s & b & E & _ & B1).
  destruct (all_w M ts tk K Htk Hr HK Hq l2 0 (stats_new ts init2) b2 (matches_new ts init2) (new_bounds ts K HK init2) H2 HN)
    as (_ & s' & b' & E' & _ & B2).
  rewrite E in E1. rewrite E' in E2. assert (s = s1) as -> by congruence. assert (s' = s2) as -> by congruence.
  eapply merge_w; eassumption.
Qed.

(** The sets an optimization works with: data of fewer than 2^64 / 258 bytes
    (about 65000 terabytes) is enough. *)
Theorem C71_sets_of_the_program : forall M n p t ts tk init buffer samples,
  good_start n p t (Some ts) -> tokenizer_new ts = Ret tk ->
  258 * length (concat samples) < M -> ntokens ts * ntokens ts <= M ->
  wprocess_all M tk samples (stats_new ts init, buffer) = process_all tk samples (stats_new ts init, buffer).
Proof.
  intros M n p t ts tk init buffer samples (sp & V & _) Htk HM HN.
  apply (C71_counters_do_not_overflow M 258 ts tk init buffer samples Htk (visited_range _ _ _ _ V)); [lia| |exact HM|exact HN].
  intros q Hq. destruct (vi_seqs _ _ _ _ V (denotes ts q) (in_map _ _ _ Hq)) as (_ & H). cbn [denotes snd] in H.
  rewrite map_length in H. destruct t; cbn [digits_of] in H; lia.
Qed.

(** The bound is needed: sums of 8 bits wrap at 256. *)
Example C71_wrapping : wadd 256 200 100 = 44 /\ wadd 256 100 100 = 200.
Proof. split; reflexivity. Qed.

(** The hypotheses are met for instance by the set of the 256 bytes. *)
Example C71_hypotheses_met : exists ts tk, good_start 300 Raw Bytes (Some ts) /\ tokenizer_new ts = Ret tk /\ ntokens ts = 256 /\
  seqs_in_range ts /\ (forall q, In q (sequences ts) -> length (seq_tokens q) <= 1).
Proof.
  destruct (visited_bytes Raw) as (V & B & L). pose proof (base_ntokens (new_bytes Raw)) as Nb. rewrite B, L in Nb.
  assert (Sq : sequences (new_bytes Raw) = []) by reflexivity. revert V Nb Sq. generalize (new_bytes Raw). intros ts V Nb Sq.
  destruct (proj2 (C01_tokenizer_exists_iff_usable ts) (vi_usable _ _ _ _ V)) as (tk & Htk). exists ts, tk.
  split; [exists true; split; [exact V|rewrite Nb; apply Nat.leb_le; reflexivity]|]. split; [exact Htk|]. split; [exact Nb|].
  split; [apply (visited_range _ _ _ _ V)|]. rewrite Sq. intros q [].
Qed.
