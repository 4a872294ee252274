(** * Property C46: optimizing with increasing data. *)
From Coq Require Import ZArith.
From Verif Require Import Base BaseLemmas Utf8 TokenSetModel TokenizerModel TokSpec TokenizerProof1 TokenizerProof2
  TokenizerTheory TokenSetProof TokenSetProof2 PropTokenizer PropTokenSet StatsAlgebra BatchModel PropBatch
  PropJson Shaped SamplerModel PropSampler CacheModel PropCache OptBytesModel OptimizeModel OptimizeProof1 OptimizeProof2
  OptimizeProof5 OptimizeProof6 OptimizeProof7 PropOptimize MainModel.

Section Main.
Variables (threads rounds n : nat) (p : processing) (t : token_type) (init : option nat).
Variables (order : smap nat -> list bstr -> list bstr) (clock : N -> nat -> bool).
Variables (near : stats -> stats -> bool) (below : N -> nat -> nat -> bool).
Variables (reads : nat -> nat) (file : bstr).

Local Notation reach := (isteps threads rounds n p t init order clock near below reads file).
Local Notation next := (istep threads rounds n p t init order clock near below reads file).

(** ** What holds of every execution, whatever the parameters *)

(** A returned result comes from a size between 2^24 and the file size, which is
    the minimum size times a power of two. *)
Lemma reach_sizes min pre x : reach (IRun min pre) x ->
  match x with
  | IRun size _ => exists k, size = (min * 2 ^ N.of_nat k)%N
  | IReturned _ => exists k, (large < min * 2 ^ N.of_nat k < full_size file)%N
  | IPanicked => True
  end.
Proof.
  intros H. remember (IRun min pre) as x0 eqn:E0. induction H as [x|x y z H IH St]; subst.
  - exists 0. cbn. lia.
  - specialize (IH eq_refl). inversion St; subst; try exact I.
    destruct IH as (k & Ek). destruct ((large <? size)%N && near s f) eqn:Eb.
    + apply andb_true_iff in Eb as (Eb & _). apply N.ltb_lt in Eb. exists k. rewrite <- Ek. split; assumption.
    + exists (S k). rewrite Ek, Nat2N.inj_succ, N.pow_succ_r'. lia.
Qed.

(** ** C46 *)

(** No result for any file of at most 2^24 + 1 bytes. *)
Theorem small_files_never_return min pre s : (full_size file <= large + 1)%N -> ~ reach (IRun min pre) (IReturned s).
Proof. intros Hf H. apply reach_sizes in H as (k & H). lia. Qed.

(** With a minimum size not below the file size the only step is a panic. *)
Theorem minimum_too_big min pre x : (full_size file <= min)%N -> next (IRun min pre) x <-> x = IPanicked.
Proof.
  intros Hf. split; [|intros ->; apply is_end; exact Hf]. intros H. inversion H; subst; try reflexivity. lia.
Qed.

(** With minimum size 0 there is never a result. *)
Theorem zero_never_returns pre s : ~ reach (IRun 0 pre) (IReturned s).
Proof. intros H. apply reach_sizes in H as (k & H). rewrite N.mul_0_l in H. lia. Qed.

(** ** Executions with a usable configuration *)
Lemma step_positive b r ok k : utf8_step (b :: r) = (ok, k) -> 1 <= k.
Proof.
  intros E. destruct k; [|lia]. exfalso. cbn in E.
  repeat match type of E with
  | context [if ?c then _ else _] => destruct c
  | context [match ?c with [] => _ | _ :: _ => _ end] => destruct c
  end; discriminate.
Qed.

Lemma lossy_nonempty s : s <> [] -> utf8_lossy s <> [].
Proof.
  intros Hs. unfold utf8_lossy. destruct s as [|b r]; [congruence|]. cbn [length lossy_fuel].
  destruct (utf8_step (b :: r)) as (ok & k) eqn:E. apply step_positive in E.
  destruct ok; [|discriminate]. destruct k; [lia|discriminate].
Qed.

Lemma lossy_length s : length (utf8_lossy s) <= 3 * length s.
Proof.
  unfold utf8_lossy. generalize (length s) at 1. intros f. revert s.
  induction f as [|f IH]; intros s; destruct s as [|b r]; cbn [lossy_fuel]; try (cbn; lia).
  destruct (utf8_step (b :: r)) as (ok & k) eqn:E. rewrite app_length. specialize (IH (skipn k (b :: r))).
  apply step_positive in E. rewrite skipn_length in IH. destruct ok.
  - rewrite firstn_length. lia.
  - change (length replacement) with 3. cbn [length] in *. lia.
Qed.

Lemma select_length {A} (sel : list bool) (l : list (list A)) : length (concat (select sel l)) <= length (concat l).
Proof.
  revert sel. induction l as [|x l IH]; intros [|[] sel]; cbn; rewrite ?app_length; try lia.
  - specialize (IH sel). lia.
  - specialize (IH sel). lia.
Qed.

(** The samplers for smaller sizes always work and yield no empty samples. *)
Lemma sampler_total size : exists total samples, sampler below file size = Ret (total, samples) /\ ~ In [] samples /\
  length (concat samples) <= 3 * length file.
Proof.
  unfold sampler. destruct (C31_whole_paragraphs (below size) file) as (ps & sel & Hp & _ & E). rewrite E. cbn [bind].
  set (data := concat (select sel ps)).
  assert (Hl : length data <= length file).
  { unfold data. rewrite <- (ip_concat _ _ Hp). apply select_length. }
  clearbody data. clear E. assert (Hm : 0 < N.to_nat mega) by (unfold mega; lia).
  destruct (C26_memory_sampler_slices data (N.to_nat mega) (S (length data)) Hm (Nat.lt_succ_diag_r _)) as (l & E & _).
  unfold memory_samples. rewrite E. cbn [bind]. destruct (C26_memory_sampler_covers_data _ _ _ _ Hm E) as (Ec & Hne & _).
  eexists _, _. split; [reflexivity|]. split.
  - intros Hi. apply in_map_iff in Hi as (x & Ex & Hx). apply (lossy_nonempty x); [apply (Hne x Hx)|exact Ex].
  - clear - Ec Hl. assert (G : length (concat (map utf8_lossy l)) <= 3 * length (concat l)).
    { clear. induction l as [|x l IH]; cbn [map concat]; [cbn; lia|]. rewrite !app_length. pose proof (lossy_length x). lia. }
    rewrite Ec in G. lia.
Qed.

(** Sizes double, so a positive minimum leads to an end. *)
Lemma ends_eventually size pre : (0 < size)%N -> Acc (fun y x => next x y) (IRun size pre).
Proof.
  assert (D : forall x y, match x with IRun _ _ => False | _ => True end -> ~ next x y) by (intros [] y Hx H; [destruct Hx|inversion H..]).
  intros Hp. remember (N.to_nat (full_size file - size)) as k eqn:Ek. revert size pre Hp Ek.
  induction k as [k IH] using (well_founded_induction lt_wf). intros size pre Hp Ek. constructor. intros y Hy.
  assert (Hlt : match y with IRun size' _ => size' = (size * 2)%N /\ (size < full_size file)%N | _ => True end).
  { inversion Hy as [| | | |size0 pre0 total samples m s full f Hs]; subst; try exact I. destruct ((large <? size)%N && near s f); [exact I|]. split; [reflexivity|exact Hs]. }
  destruct y as [size' pre'|f|].
  - destruct Hlt as (-> & Hs). eapply IH; [|lia|reflexivity]. lia.
  - constructor. intros y' H'. exfalso. exact (D (IReturned f) y' I H').
  - constructor. intros y' H'. exfalso. exact (D IPanicked y' I H').
Qed.

Section Good.
Hypothesis Hthreads : 1 <= threads.
Hypothesis Hord : shuffles order.
Hypothesis Hsup : supported t n.
Hypothesis Hrounds : let b := 258 * (3 * length file) in S (n * S b + b) <= rounds.

Lemma bound_ok samples : length (concat samples) <= 3 * length file -> round_bound samples n <= rounds.
Proof.
  intros H. etransitivity; [|exact Hrounds]. unfold round_bound.
  assert (G : 258 * length (concat samples) <= 258 * (3 * length file)) by (apply Nat.mul_le_mono_l; exact H).
  revert G. generalize (258 * length (concat samples)) (258 * (3 * length file)). intros a b G.
  assert (n * S a <= n * S b) by (apply Nat.mul_le_mono_l; lia). lia.
Qed.

(** A finished round *)
Lemma round_good size pre total samples m s : good_start n p t pre -> sampler below file size = Ret (total, samples) ->
  steps threads total samples init (mkMachine [] [] (optimize_tokenset order (clock size) rounds n p t pre)) m ->
  ~ panicked m /\ (returned m s -> good_result n p t (st_token_set s) /\ good_start n p t (Some (st_token_set s)) /\
     min_total (st_token_set s) samples (total_tokens s)).
Proof.
  intros Hg Es Hs. destruct (sampler_total size) as (total' & samples' & Es' & Hne & Hl). rewrite Es in Es'. injection Es' as <- <-.
  split.
  - apply (C43_optimization_never_panics_partial threads total samples init order (clock size) n p t pre rounds Hthreads Hne Hord Hsup Hg (bound_ok _ Hl)). exact Hs.
  - intros R. destruct (C44_result_within_budget threads total samples init order (clock size) n p t pre rounds m Hthreads Hne Hord Hsup Hg (bound_ok _ Hl) Hs) as (_ & H).
    exact (H s R).
Qed.

Lemma start_usable ts : good_start n p t (Some ts) -> exists tk, tokenizer_new ts = Ret tk.
Proof. intros (sp & V & _). apply C01_tokenizer_exists_iff_usable, (vi_usable _ _ _ _ V). Qed.

(** What a result is: the statistics on the full data of a set that was optimized
    on a sample of more than 2^24 bytes. *)
Definition good_final (f : stats) : Prop := exists size pre total samples m s full,
  (large < size < full_size file)%N /\ sampler below file size = Ret (total, samples) /\
  optimizing threads total samples init order (clock size) n p t pre rounds m /\ returned m s /\
  good_result n p t (st_token_set s) /\ near s f = true /\
  full_samples reads file = Ret full /\ tokenize_file_sync (st_token_set s) full init = Ret f.

Lemma next_good size pre x : good_start n p t pre -> next (IRun size pre) x ->
  match x with
  | IRun size' pre' => size' = (size * 2)%N /\ (size < full_size file)%N /\ good_start n p t pre'
  | IReturned f => good_final f
  | IPanicked => (full_size file <= size)%N \/ full_samples reads file = Panic
  end.
Proof.
  intros Hg H. inversion H as [size0 pre0 Hs|size0 ts Hs Hp|size0 pre0 total samples m Hs Es Hst Em|size0 pre0 total samples m s Hs Es Hst Em Ef|size0 pre0 total samples m s full f Hs Es Hst Em Ef Pf]; subst.
  - left. exact Hs.
  - exfalso. destruct (start_usable ts Hg) as (tk & E). congruence.
  - exfalso. eapply (proj1 (round_good size pre total samples m (stats_new (new_bytes Raw) None) Hg Es Hst)). exact Em.
  - right. exact Ef.
  - destruct (round_good size pre total samples m s Hg Es Hst) as (_ & G). destruct (G Em) as (G1 & G2 & _).
    destruct ((large <? size)%N && near s f) eqn:Eb; [|auto].
    apply andb_true_iff in Eb as (Eb & En). apply N.ltb_lt in Eb.
    exists size, pre, total, samples, m, s, full. split; [split; assumption|]. split; [exact Es|]. split; [exact Hst|]. split; [exact Em|].
    split; [exact G1|]. split; [exact En|]. split; [exact Ef|].
    eapply C11_result_is_unique; [|exact Hthreads|exact Pf]. destruct G2 as (sp & V & _). apply (visited_range _ _ _ _ V).
Qed.

(** As long as the full data can be read, every round works. *)
Lemma next_exists size pre full : good_start n p t pre -> full_samples reads file = Ret full -> ~ In [] full ->
  exists x, next (IRun size pre) x.
Proof.
  intros Hg Hfull Hne'. destruct (N.lt_ge_cases size (full_size file)) as [Hs|Hs]; [|eexists; apply is_end; exact Hs].
  destruct (sampler_total size) as (total & samples & Es & Hne & Hl).
  destruct (proj1 (C43_optimization_never_panics_partial threads total samples init order (clock size) n p t pre rounds Hthreads Hne Hord Hsup Hg (bound_ok _ Hl))) as (m & s & Hst & Em).
  destruct (proj2 (round_good size pre total samples m s Hg Es Hst) Em) as (_ & (sp & V & _) & _).
  destruct (proj2 (C01_tokenizer_exists_iff_usable _) (vi_usable _ _ _ _ V)) as (tk & Htk).
  pose proof (visited_range _ _ _ _ V) as Hr.
  assert (P : exists f, par_result (st_token_set s) threads (full_size file) full init f).
  { destruct (N.lt_ge_cases (full_size file) small_size) as [Hlt|Hge].
    - eexists. apply pr_small; [exact Hlt|]. apply (sync_eq _ tk Htk Hr).
    - destruct (C12_some_execution_returns _ tk init threads full Htk Hr Hthreads Hne') as (c0 & st & H1 & H2).
      exists st. eapply pr_large; eauto. }
  destruct P as (f & P). eexists. eapply is_round; eauto.
Qed.

Lemma reach_good min pre x : good_start n p t pre -> reach (IRun min pre) x ->
  match x with
  | IRun size' pre' => good_start n p t pre' /\ (min = 0 -> size' = 0)%N
  | IReturned f => good_final f
  | IPanicked => full_samples reads file = Panic \/ exists k, (full_size file <= min * 2 ^ N.of_nat k)%N
  end.
Proof.
  intros Hg H. remember (IRun min pre) as x0 eqn:E0. induction H as [x|x y z H IH St]; subst; [auto|].
  specialize (IH eq_refl). destruct y as [size pre'| |]; [|inversion St..]. destruct IH as (Hg' & H0).
  pose proof (next_good size pre' z Hg' St) as G. destruct z as [size' pre''|f|]; [|exact G|].
  - destruct G as (-> & _ & G). split; [exact G|]. intros E. rewrite (H0 E). reflexivity.
  - destruct G as [G|G]; [|left; exact G]. right. destruct (reach_sizes min pre _ H) as (k & Ek). exists k. rewrite <- Ek. exact G.
Qed.

End Good.
End Main.

(** ** The theorems, without section context *)

(** A configuration the search supports and a data file that can be read. *)
Record usable_setup (threads rounds n : nat) (p : processing) (t : token_type) order (reads : nat -> nat) (file : bstr) pre : Prop := {
  us_threads : 1 <= threads;
  us_order : shuffles order;
  us_target : supported t n;
  us_rounds : let b := 258 * (3 * length file) in S (n * S b + b) <= rounds;
  us_start : good_start n p t pre;
  us_file : exists full, full_samples reads file = Ret full /\ ~ In [] full
}.

(** False: for a file of at most 2^24 + 1 bytes there is no result, whatever the
    minimum size; with a usable setup the function then panics (minimum above
    0) or runs forever (minimum 0). *)
Theorem C46_increasing_data_returns_refuted : forall threads rounds n p t init order clock near below reads file min pre,
  (full_size file <= 16777217)%N ->
  (forall s, ~ isteps threads rounds n p t init order clock near below reads file (IRun min pre) (IReturned s)) /\
  (usable_setup threads rounds n p t order reads file pre -> (0 < min)%N ->
   isteps threads rounds n p t init order clock near below reads file (IRun min pre) IPanicked).
Proof.
  intros threads rounds n p t init order clock near below reads file min pre Hf.
  assert (G : forall s, ~ isteps threads rounds n p t init order clock near below reads file (IRun min pre) (IReturned s)).
  { intros s. apply small_files_never_return. exact Hf. }
  split; [exact G|]. intros [H1 H2 H3 H4 H5 (full & H6 & H7)] Hm.
  assert (K : forall x, Acc (fun y x => istep threads rounds n p t init order clock near below reads file x y) x ->
     isteps threads rounds n p t init order clock near below reads file (IRun min pre) x ->
     isteps threads rounds n p t init order clock near below reads file (IRun min pre) IPanicked).
  { induction 1 as [x _ IH]. intros Hx. destruct x as [size pre'|s|]; [|exfalso; exact (G s Hx)|exact Hx].
    pose proof (reach_good threads rounds n p t init order clock near below reads file H1 H2 H3 H4 min pre _ H5 Hx) as (Hg & _).
    destruct (next_exists threads rounds n p t init order clock near below reads file H1 H2 H3 H4 size pre' full Hg H6 H7) as (y & Hy).
    apply (IH y Hy). econstructor; eauto. }
  apply (K (IRun min pre)); [apply ends_eventually; exact Hm|constructor].
Qed.

(** The same for files of any size if the minimum is not below the file size. *)
Theorem C46_minimum_too_big_panics : forall threads rounds n p t init order clock near below reads file min pre x,
  (full_size file <= min)%N ->
  istep threads rounds n p t init order clock near below reads file (IRun min pre) x <-> x = IPanicked.
Proof. intros. apply minimum_too_big. assumption. Qed.

(** A minimum of 0 bytes: every execution goes on forever. *)
Theorem C46_minimum_zero_never_ends : forall threads rounds n p t init order clock near below reads file pre x,
  usable_setup threads rounds n p t order reads file pre -> file <> [] ->
  isteps threads rounds n p t init order clock near below reads file (IRun 0 pre) x ->
  (exists pre', x = IRun 0 pre') /\ exists y, istep threads rounds n p t init order clock near below reads file x y.
Proof.
  intros threads rounds n p t init order clock near below reads file pre x [H1 H2 H3 H4 H5 (full & H6 & H7)] Hf H.
  pose proof (reach_good threads rounds n p t init order clock near below reads file H1 H2 H3 H4 0 pre x H5 H) as G.
  destruct x as [size pre'|s|].
  - destruct G as (G & E). rewrite (E eq_refl). split; [eauto|].
    apply (next_exists threads rounds n p t init order clock near below reads file H1 H2 H3 H4 0 pre' full G H6 H7).
  - exfalso. exact (zero_never_returns threads rounds n p t init order clock near below reads file pre s H).
  - exfalso. destruct G as [G|(k & G)]; [congruence|]. unfold full_size in G. destruct file; [congruence|]. cbn [length] in G. lia.
Qed.

(** What is true: with a minimum above 0 and a usable setup every execution ends;
    a result is the statistics on the full data of a set within the budget optimized on
    a sample of more than 2^24 bytes passing the closeness test; and it
    panics only because the sizes min, 2 min, 4 min, ... ran out. *)
Theorem C46_increasing_data_returns_partial : forall threads rounds n p t init order clock near below reads file min pre,
  usable_setup threads rounds n p t order reads file pre -> (0 < min)%N ->
  Acc (fun y x => istep threads rounds n p t init order clock near below reads file x y) (IRun min pre) /\
  forall x, isteps threads rounds n p t init order clock near below reads file (IRun min pre) x ->
  match x with
  | IRun size pre' => good_start n p t pre' /\ exists y, istep threads rounds n p t init order clock near below reads file x y
  | IReturned f => good_final threads rounds n p t init order clock near below reads file f
  | IPanicked => exists k, (full_size file <= min * 2 ^ N.of_nat k)%N
  end.
Proof.
  intros threads rounds n p t init order clock near below reads file min pre [H1 H2 H3 H4 H5 (full & H6 & H7)] Hm.
  split; [apply ends_eventually; exact Hm|]. intros x H.
  pose proof (reach_good threads rounds n p t init order clock near below reads file H1 H2 H3 H4 min pre x H5 H) as G.
  destruct x as [size pre'|s|]; [|exact G|].
  - split; [apply G|]. apply (next_exists threads rounds n p t init order clock near below reads file H1 H2 H3 H4 size pre' full (proj1 G) H6 H7).
  - destruct G as [G|G]; [congruence|exact G].
Qed.

(** If the full file is larger, results are possible: the last round before
    the size reaches the file size, with a test that accepts everything. *)
Theorem C46_results_exist : forall threads rounds n p t init order clock below reads file min pre,
  usable_setup threads rounds n p t order reads file pre -> (16777216 < min < full_size file)%N ->
  exists f, isteps threads rounds n p t init order clock (fun _ _ => true) below reads file (IRun min pre) (IReturned f).
Proof.
  intros threads rounds n p t init order clock below reads file min pre [H1 H2 H3 H4 H5 (full & H6 & H7)] (Hm & Hf).
  destruct (next_exists threads rounds n p t init order clock (fun _ _ => true) below reads file H1 H2 H3 H4 min pre full H5 H6 H7) as (x & Hx).
  pose proof (next_good threads rounds n p t init order clock (fun _ _ => true) below reads file H1 H2 H3 H4 min pre x H5 Hx) as G.
  inversion Hx as [size0 pre0 Hs|size0 ts Hs Hp|size0 pre0 total samples m Hs Es Hst Em|size0 pre0 total samples m s Hs Es Hst Em Ef|size0 pre0 total samples m s full0 f Hs Es Hst Em Ef Pf]; subst.
  - exfalso. lia.
  - exfalso. destruct G as [G|G]; [lia|congruence].
  - exfalso. destruct G as [G|G]; [lia|congruence].
  - exfalso. congruence.
  - assert (Eb : (large <? min)%N && true = true) by (unfold large; rewrite (proj2 (N.ltb_lt _ _) Hm); reflexivity).
    rewrite Eb in *. exists f. econstructor; [constructor|exact Hx].
Qed.

(** The hypotheses are met by every ASCII file, e.g. with 300 byte tokens. *)
Example C46_hypotheses_met : forall file, Forall (fun b => b2n b < 128) file ->
  exists reads rounds, usable_setup 4 rounds 300 Raw Bytes (fun _ l => l) reads file None.
Proof.
  intros file Ha. exists (fun pos => Nat.min (N.to_nat large) (length file - pos)).
  eexists. split; [lia|intros m l; reflexivity|split; [apply Nat.leb_le; reflexivity|exact I]|apply le_n|exact I|].
  destruct (C28_ascii_file (fun pos => Nat.min (N.to_nat large) (length file - pos)) file (N.to_nat large) (S (length file)) Ha) as (l & E & _ & H).
  - unfold large. lia.
  - intros pos. split; [apply le_n|auto].
  - lia.
  - exists l. split; [exact E|exact H].
Qed.
