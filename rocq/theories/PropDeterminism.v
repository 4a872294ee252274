(** * Property C53: an optimization has one result. *)
From Coq Require Import ZArith.
From Verif Require Import Base BaseLemmas TokenSetModel TokenizerModel TokSpec TokenizerProof1
  TokenSetProof TokenSetProof2 PropTokenizer StatsAlgebra BatchModel PropBatch
  PropJson Shaped CacheModel PropCache OptBytesModel OptimizeModel OptimizeProof1 OptimizeProof2 OptimizeProof3
  OptimizeProof8 PropOptimize.

(** ** Executions by hand: every question is answered by sorting the token set
    and tokenizing the samples sequentially. *)
Definition answer (samples : list bstr) (init : option nat) (r : request) : outcome stats :=
  ts' <- ts_sort (requested r) ;;
  s <- tokenize_file_sync ts' samples init ;;
  Ret (match r with WithPairs _ => s | NoPairs _ => without_pairs s end).

Lemma fresh_answer_iff samples init r a : fresh_answer samples init r a <-> answer samples init r = Ret a.
Proof.
  unfold fresh_answer, answer. split.
  - intros (ts' & s & E1 & E2 & ->). rewrite E1. cbn [bind]. rewrite E2. reflexivity.
  - destruct (ts_sort (requested r)) as [ts'| |]; try discriminate. cbn [bind].
    destruct (tokenize_file_sync ts' samples init) as [s| |] eqn:E; try discriminate. cbn [bind].
    intros H. injection H as <-. eauto.
Qed.

(** Result and saved token sets. *)
Fixpoint outcome_of {A} samples init (p : prog A) : outcome A :=
  match p with
  | PDone o => o
  | PAsk r k => match answer samples init r with Ret a => outcome_of samples init (k a) | Panic => Panic | OutOfFuel => OutOfFuel end
  | PSave _ k => outcome_of samples init k
  end.
Fixpoint saves_of {A} samples init (p : prog A) : list tokenset :=
  match p with
  | PDone _ => []
  | PAsk r k => match answer samples init r with Ret a => saves_of samples init (k a) | _ => [] end
  | PSave ts k => ts :: saves_of samples init k
  end.

Lemma outcome_bind {A B} samples init (m : prog A) (f : A -> prog B) :
  outcome_of samples init (pbind m f) = bind (outcome_of samples init m) (fun a => outcome_of samples init (f a)).
Proof.
  induction m as [o|r k IH|ts k IH]; cbn.
  - destruct o; reflexivity.
  - destruct (answer samples init r); [apply IH|reflexivity..].
  - exact IH.
Qed.

(** A finished execution of an [okT] program is the one by hand. *)
Lemma okT_outcome {A} (p : prog A) n total samples init I (Q : list tokenset -> A -> Prop) :
  1 <= n -> okT samples init p [] I Q ->
  forall m, steps n total samples init (mkMachine [] [] p) m ->
  m_saved m ++ saves_of samples init (m_prog m) = saves_of samples init p /\
  outcome_of samples init (m_prog m) = outcome_of samples init p.
Proof.
  intros Hn Hok m Hst.
  assert (R : (exists h, history n total samples init h (m_cache m) /\ forall r a, In (r, a) h -> exists ss, shaped (requested r) ss) /\
              okT samples init (m_prog m) (m_saved m) I Q /\
              m_saved m ++ saves_of samples init (m_prog m) = saves_of samples init p /\
              outcome_of samples init (m_prog m) = outcome_of samples init p); [|apply R].
  remember (mkMachine (A := A) [] [] p) as m0 eqn:E0.
  induction Hst as [m|m1 m2 m3 _ IH Hs].
  - subst m. cbn [m_cache m_saved m_prog app]. split; [|split; [exact Hok|split; reflexivity]]. exists []. split; [constructor|intros r a []].
  - specialize (IH E0). destruct IH as ((h & Hh & Hsh) & H3 & H4 & H5).
    destruct Hs as [c sv r k a c' Hc|c sv ts k]; cbn [m_cache m_saved m_prog] in *.
    + destruct H3 as (_ & (Ha & Hu) & H3).
      assert (Hh' : history n total samples init (h ++ [(r, a)]) c') by (econstructor; eauto).
      assert (Hs' : forall r0 a0, In (r0, a0) (h ++ [(r, a)]) -> exists ss, shaped (requested r0) ss).
      { intros r0 a0 Hi. apply in_app_iff in Hi as [Hi|[Hi|[]]]; [eapply Hsh; exact Hi|]. injection Hi as <- <-. exact Ha. }
      assert (Hf : fresh_answer samples init r a).
      { eapply (C15_cache_is_transparent n total samples init _ c' Hn Hh' Hs'). apply in_app_iff; right; left; reflexivity. }
      split; [eauto|]. split; [apply H3; exact Hf|]. apply fresh_answer_iff in Hf. rewrite <- H4, <- H5. cbn [saves_of outcome_of].
      rewrite Hf. split; reflexivity.
    + split; [eauto|]. split; [apply H3|]. rewrite <- H4, <- H5. cbn [saves_of outcome_of]. rewrite <- app_assoc. split; reflexivity.
Qed.

(** ** The clock only decides what is saved; extra rounds are not used. *)
Section Loop.
Variables (samples : list bstr) (init : option nat) (bo : bytes_optimizer) (order : smap nat -> list bstr -> list bstr).
Local Notation out := (outcome_of samples init).

Lemma loop_clock clock1 clock2 fuel : forall round1 round2 ts n rc,
  out (optimize_loop bo order clock1 fuel round1 ts n rc) = out (optimize_loop bo order clock2 fuel round2 ts n rc).
Proof.
  induction fuel as [|fuel IH]; intros round1 round2 ts n rc; [reflexivity|]. cbn [optimize_loop].
  rewrite !outcome_bind. destruct (out (optimization_step bo order ts n rc)) as [[[new|] rc']| |]; cbn [bind]; try reflexivity.
  destruct (clock1 round1), (clock2 round2); cbn [outcome_of]; apply IH.
Qed.

Lemma loop_fuel clock fuel : forall round ts n rc k,
  out (optimize_loop bo order clock fuel round ts n rc) <> OutOfFuel ->
  out (optimize_loop bo order clock (fuel + k) round ts n rc) = out (optimize_loop bo order clock fuel round ts n rc).
Proof.
  induction fuel as [|fuel IH]; intros round ts n rc k H; [cbn in H; congruence|]. cbn [optimize_loop Nat.add] in *.
  rewrite !outcome_bind in *. destruct (out (optimization_step bo order ts n rc)) as [[[new|] rc']| |]; cbn [bind] in *; try reflexivity.
  destruct (clock round); cbn [outcome_of] in *; apply IH; exact H.
Qed.
End Loop.

Lemma tokenset_clock samples init order clock1 clock2 fuel n p t pre :
  outcome_of samples init (optimize_tokenset order clock1 fuel n p t pre) = outcome_of samples init (optimize_tokenset order clock2 fuel n p t pre).
Proof.
  unfold optimize_tokenset, optimize_impl. rewrite !outcome_bind. destruct (outcome_of samples init (initial_set n p t pre)) as [ts| |]; cbn [bind]; try reflexivity.
  rewrite !outcome_bind. destruct (outcome_of samples init (get_stats ts)) as [s| |]; cbn [bind]; try reflexivity.
  rewrite (loop_clock samples init (optimizer_for t) order clock1 clock2 fuel 0 0 ts n []). reflexivity.
Qed.

Lemma tokenset_fuel samples init order clock fuel k n p t pre :
  outcome_of samples init (optimize_tokenset order clock fuel n p t pre) <> OutOfFuel ->
  outcome_of samples init (optimize_tokenset order clock (fuel + k) n p t pre) = outcome_of samples init (optimize_tokenset order clock fuel n p t pre).
Proof.
  unfold optimize_tokenset, optimize_impl. rewrite !outcome_bind. destruct (outcome_of samples init (initial_set n p t pre)) as [ts| |]; cbn [bind]; try reflexivity.
  rewrite !outcome_bind. destruct (outcome_of samples init (get_stats ts)) as [s| |]; cbn [bind]; try reflexivity.
  intros H. rewrite loop_fuel; [reflexivity|]. intros E. rewrite E in H. cbn [bind] in H. congruence.
Qed.

(** ** Reordering the samples *)
Lemma sync_perm ts l1 l2 init : seqs_in_range ts -> Permutation l1 l2 ->
  tokenize_file_sync ts l1 init = tokenize_file_sync ts l2 init.
Proof.
  intros Hr HP. destruct (tokenizer_new ts) as [tk| |] eqn:E.
  - destruct (C11_sample_order_irrelevant ts tk init l1 l2 E Hr HP) as (st & E1 & E2). congruence.
  - unfold tokenize_file_sync. rewrite E. reflexivity.
  - unfold tokenize_file_sync. rewrite E. reflexivity.
Qed.

Lemma answer_perm l1 l2 init r : (exists ss, shaped (requested r) ss) -> Permutation l1 l2 -> answer l1 init r = answer l2 init r.
Proof.
  intros (ss & S) HP. unfold answer. destruct (ts_sort (requested r)) as [ts'| |] eqn:E; cbn [bind]; try reflexivity.
  destruct (shaped_sort _ _ _ S E) as (ss' & S' & _). rewrite (sync_perm ts' l1 l2 init (sh_range _ _ S') HP). reflexivity.
Qed.

Lemma okT_perm {A} l1 l2 init (p : prog A) I (Q : list tokenset -> A -> Prop) : Permutation l1 l2 -> forall sv, okT l1 init p sv I Q ->
  outcome_of l1 init p = outcome_of l2 init p /\ saves_of l1 init p = saves_of l2 init p.
Proof.
  intros HP. induction p as [o|r k IH|ts k IH]; intros sv Hok; cbn in *.
  - split; reflexivity.
  - destruct Hok as (_ & (Ha & _) & Hok). rewrite (answer_perm l1 l2 init r Ha HP).
    destruct (answer l2 init r) as [a| |] eqn:E; [|split; reflexivity..]. apply (IH a sv). apply Hok, fresh_answer_iff.
    rewrite (answer_perm l1 l2 init r Ha HP). exact E.
  - destruct Hok as (_ & Hok). destruct (IH _ Hok) as (E1 & E2). rewrite E1, E2. split; reflexivity.
Qed.

(** ** C53 *)
Theorem C53_one_result :
  forall threads1 threads2 total1 total2 samples1 samples2 init order clock1 clock2 n p t pre rounds1 rounds2 m1 m2 s1 s2,
  1 <= threads1 -> 1 <= threads2 -> Permutation samples1 samples2 -> shuffles order -> supported t n -> good_start n p t pre ->
  round_bound samples1 n <= rounds1 -> round_bound samples2 n <= rounds2 ->
  optimizing threads1 total1 samples1 init order clock1 n p t pre rounds1 m1 -> returned m1 s1 ->
  optimizing threads2 total2 samples2 init order clock2 n p t pre rounds2 m2 -> returned m2 s2 ->
  s1 = s2 /\ (clock1 = clock2 -> rounds1 = rounds2 -> m_saved m1 = m_saved m2).
Proof.
  intros threads1 threads2 total1 total2 l1 l2 init order clock1 clock2 n p t pre r1 r2 m1 m2 s1 s2 H1 H2 HP Ho Hs Hp Hr1 Hr2 M1 R1 M2 R2.
  pose proof (optimize_okT l1 init order clock1 n p t pre r1 Ho Hs Hp Hr1) as K1.
  pose proof (optimize_okT l2 init order clock2 n p t pre r2 Ho Hs Hp Hr2) as K2.
  destruct (okT_outcome _ threads1 total1 l1 init _ _ H1 K1 m1 M1) as (S1 & O1).
  destruct (okT_outcome _ threads2 total2 l2 init _ _ H2 K2 m2 M2) as (S2 & O2).
  unfold returned in R1, R2. rewrite R1 in S1, O1. rewrite R2 in S2, O2. cbn [outcome_of saves_of] in S1, O1, S2, O2.
  rewrite app_nil_r in S1, S2. destruct (okT_perm l1 l2 init _ _ _ HP [] K1) as (P1 & P2).
  split.
  - rewrite P1 in O1. destruct (Nat.le_ge_cases r1 r2) as [Hle|Hle].
    + assert (E : outcome_of l2 init (optimize_tokenset order clock2 r2 n p t pre) = Ret s1).
      { rewrite O1, (tokenset_clock l2 init order clock1 clock2). replace r2 with (r1 + (r2 - r1)) by lia. apply tokenset_fuel.
        rewrite (tokenset_clock l2 init order clock2 clock1), <- O1. discriminate. }
      rewrite E in O2. apply ret_inj in O2. symmetry; exact O2.
    + assert (E : outcome_of l2 init (optimize_tokenset order clock1 r1 n p t pre) = Ret s2).
      { rewrite O2, (tokenset_clock l2 init order clock2 clock1). replace r1 with (r2 + (r1 - r2)) by lia. apply tokenset_fuel.
        rewrite (tokenset_clock l2 init order clock1 clock2), <- O2. discriminate. }
      rewrite E in O1. apply ret_inj in O1. exact O1.
  - intros <- <-. rewrite S1, S2, P2. reflexivity.
Qed.

(** Runs with different numbers of threads, sample orders and clocks exist. *)
Example C53_hypotheses_met : exists m1 m2 s1 s2,
  optimizing 4 3 [[x61; x62]; [x61]] None (fun _ l => rev l) (fun _ => true) 10 Raw Bits1 None (round_bound [[x61; x62]; [x61]] 10) m1 /\ returned m1 s1 /\
  optimizing 1 3 [[x61]; [x61; x62]] None (fun _ l => rev l) (fun _ => false) 10 Raw Bits1 None (round_bound [[x61]; [x61; x62]] 10) m2 /\ returned m2 s2 /\
  s1 = s2.
Proof.
  assert (Hr : shuffles (fun _ l => rev l)) by (intros m l; symmetry; apply Permutation_rev).
  assert (Hn1 : ~ In [] [[x61; x62]; [x61]]) by (cbn; intuition discriminate).
  assert (Hn2 : ~ In [] [[x61]; [x61; x62]]) by (cbn; intuition discriminate).
  assert (G : supported Bits1 10) by (unfold supported; cbn; lia).
  destruct (proj1 (C43_optimization_never_panics_partial 4 3 [[x61; x62]; [x61]] None (fun _ l => rev l) (fun _ => true) 10 Raw Bits1 None _ ltac:(lia) Hn1 Hr G I (le_n _))) as (m1 & s1 & A1 & B1).
  destruct (proj1 (C43_optimization_never_panics_partial 1 3 [[x61]; [x61; x62]] None (fun _ l => rev l) (fun _ => false) 10 Raw Bits1 None _ ltac:(lia) Hn2 Hr G I (le_n _))) as (m2 & s2 & A2 & B2).
  exists m1, m2, s1, s2. split; [exact A1|]. split; [exact B1|]. split; [exact A2|]. split; [exact B2|].
  refine (proj1 (C53_one_result 4 1 _ _ _ _ _ _ _ _ _ _ _ _ _ _ m1 m2 s1 s2 _ _ (perm_swap _ _ _) Hr G (I : good_start 10 Raw Bits1 None) (le_n _) (le_n _) A1 B1 A2 B2)); lia.
Qed.
