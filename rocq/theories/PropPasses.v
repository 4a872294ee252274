(** * Property C106: how often an optimization goes over its data. *)
From Coq Require Import ZArith.
From Verif Require Import Base BaseLemmas TokenSetModel TokenizerModel TokSpec SortLemmas TokenizerProof1 TokenizerProof2
  TokenizerTheory TokenSetProof TokenSetProof2 PropTokenizer PropTokenSet StatsAlgebra BatchModel PropBatch JsonModel
  PropJson Shaped CacheModel PropCache OptBytesModel OptBytesProof OptBytesProof2
  OptBytesProof3 OptBytesProof4 PropOptBytes OptimizeModel OptimizeProof1 OptimizeProof2 OptimizeProof3 OptimizeProof4
  OptimizeProof5 OptimizeProof6 OptimizeProof7 OptimizeProof8 PropOptimize PropDeterminism PropFixpoint PropWaste.

(** ** Specification

    The cache can answer a request from memory: statistics without pairs were asked for,
    and there is an entry for the (sorted) set. *)
Definition in_cache (c : smap stats) (r : request) : Prop :=
  match r with
  | WithPairs _ => False
  | NoPairs ts => exists ts' k s, ts_sort ts = Ret ts' /\ get_key ts' = Ret k /\ sget c k = Some s
  end.

(** Executions with two counters: the requests made of the cache, and those for which the
    data had to be tokenized. *)
Inductive counting (threads : nat) (total : N) (samples : list bstr) (init : option nat) {A} (m0 : machine A)
  : nat -> nat -> machine A -> Prop :=
| cg_start : counting threads total samples init m0 0 0 m0
| cg_hit asked read c sv r f s c' : counting threads total samples init m0 asked read (mkMachine c sv (PAsk r f)) ->
    in_cache c r -> call threads total samples init c r s c' -> counting threads total samples init m0 (S asked) read (mkMachine c' sv (f s))
| cg_read asked read c sv r f s c' : counting threads total samples init m0 asked read (mkMachine c sv (PAsk r f)) ->
    ~ in_cache c r -> call threads total samples init c r s c' -> counting threads total samples init m0 (S asked) (S read) (mkMachine c' sv (f s))
| cg_save asked read c sv ts f : counting threads total samples init m0 asked read (mkMachine c sv (PSave ts f)) ->
    counting threads total samples init m0 asked read (mkMachine c (sv ++ [ts]) f).

(** Every execution is counted. *)
Lemma counting_steps threads total samples init {A} (m0 : machine A) a k m :
  counting threads total samples init m0 a k m -> steps threads total samples init m0 m.
Proof. induction 1; [constructor|eapply steps_more; [eassumption|constructor; assumption]..]. Qed.

Lemma call_in_cache threads total samples init c r s c' : call threads total samples init c r s c' -> in_cache c r \/ ~ in_cache c r.
Proof.
  destruct 1 as [c ts ts' s k|c ts ts' s k E1 E2 E3|c ts ts' s k E1 E2 E3 E4].
  - right. intros [].
  - left. cbn. eauto 7.
  - right. cbn. intros (ts1 & k1 & s1 & F1 & F2 & F3). rewrite E1 in F1. injection F1 as <-. rewrite E2 in F2. injection F2 as <-. congruence.
Qed.

Lemma steps_counting threads total samples init {A} (m0 : machine A) m :
  steps threads total samples init m0 m -> exists a k, counting threads total samples init m0 a k m.
Proof.
  induction 1 as [m|m1 m2 m3 _ (a & k & IH) Hs]; [exists 0, 0; constructor|]. destruct Hs as [c sv r f s c' Hc|c sv ts f].
  - destruct (call_in_cache _ _ _ _ _ _ _ _ Hc) as [H|H]; [exists (S a), k; eapply cg_hit; eassumption|exists (S a), (S k); eapply cg_read; eassumption].
  - exists a, k. apply cg_save. exact IH.
Qed.

(** ** Requests of a program *)
Fixpoint asks_of {A} samples init (p : prog A) : nat :=
  match p with
  | PDone _ => 0
  | PAsk r k => S (match answer samples init r with Ret a => asks_of samples init (k a) | _ => 0 end)
  | PSave _ k => asks_of samples init k
  end.

Lemma asks_bind {A B} samples init (m : prog A) (f : A -> prog B) :
  asks_of samples init (pbind m f) = asks_of samples init m + match outcome_of samples init m with Ret a => asks_of samples init (f a) | _ => 0 end.
Proof.
  induction m as [o|r k IH|ts k IH]; cbn.
  - destruct o; reflexivity.
  - destruct (answer samples init r); [rewrite IH; reflexivity|reflexivity..].
  - exact IH.
Qed.

Lemma counting_asks {A} (p : prog A) n total samples init I (Q : list tokenset -> A -> Prop) :
  1 <= n -> okT samples init p [] I Q ->
  forall a k m, counting n total samples init (mkMachine [] [] p) a k m -> a + asks_of samples init (m_prog m) = asks_of samples init p.
Proof.
  intros Hn Hok a k m H.
  assert (R : (exists h, history n total samples init h (m_cache m) /\ forall r a, In (r, a) h -> exists ss, shaped (requested r) ss) /\
              okT samples init (m_prog m) (m_saved m) I Q /\ a + asks_of samples init (m_prog m) = asks_of samples init p); [|apply R].
  assert (St : forall c sv r f s c' a1,
     (exists h, history n total samples init h (m_cache (mkMachine c sv (PAsk r f))) /\ forall r a, In (r, a) h -> exists ss, shaped (requested r) ss) ->
     okT samples init (m_prog (mkMachine c sv (PAsk r f))) (m_saved (mkMachine c sv (PAsk r f))) I Q ->
     a1 + asks_of samples init (m_prog (mkMachine c sv (PAsk r f))) = asks_of samples init p -> call n total samples init c r s c' ->
     (exists h, history n total samples init h (m_cache (mkMachine c' sv (f s))) /\ forall r a, In (r, a) h -> exists ss, shaped (requested r) ss) /\
     okT samples init (m_prog (mkMachine c' sv (f s))) (m_saved (mkMachine c' sv (f s))) I Q /\
     S a1 + asks_of samples init (m_prog (mkMachine c' sv (f s))) = asks_of samples init p).
  { intros c sv r f s c' a1 (h & Hh & Hsh) (_ & (Ha & Hu) & H3) H4 Hc. cbn [m_cache m_saved m_prog] in *.
    assert (Hh' : history n total samples init (h ++ [(r, s)]) c') by (econstructor; eauto).
    assert (Hs' : forall r0 a0, In (r0, a0) (h ++ [(r, s)]) -> exists ss, shaped (requested r0) ss).
    { intros r0 a0 Hi. apply in_app_iff in Hi as [Hi|[Hi|[]]]; [eapply Hsh; exact Hi|]. injection Hi as <- <-. exact Ha. }
    assert (Hf : fresh_answer samples init r s).
    { eapply (C15_cache_is_transparent n total samples init _ c' Hn Hh' Hs'). apply in_app_iff; right; left; reflexivity. }
    split; [eauto|]. split; [apply H3; exact Hf|]. apply fresh_answer_iff in Hf. rewrite <- H4. cbn [asks_of]. rewrite Hf. lia. }
  remember (mkMachine (A := A) [] [] p) as m0 eqn:E0.
  induction H as [|a k c sv r f s c' H IH Hin Hc|a k c sv r f s c' H IH Hin Hc|a k c sv ts f H IH].
  - subst m0. cbn [m_cache m_saved m_prog]. split; [|split; [exact Hok|reflexivity]]. exists []. split; [constructor|intros r a []].
  - destruct IH as (R1 & R2 & R3); eapply St; eassumption.
  - destruct IH as (R1 & R2 & R3); eapply St; eassumption.
  - destruct IH as (R1 & R2 & R3). cbn [m_cache m_saved m_prog] in *. split; [exact R1|]. split; [apply R2|exact R3].
Qed.

Lemma asks_get1 samples init ts : asks_of samples init (get_stats ts) <= 1.
Proof. unfold get_stats. cbn [asks_of]. destruct (answer samples init (NoPairs ts)); cbn [asks_of pret]; lia. Qed.

(** ** One round *)
Section Round.
Variables (samples : list bstr) (init : option nat) (bo : bytes_optimizer) (order : smap nat -> list bstr -> list bstr).
Local Notation asks := (asks_of samples init).

Lemma asks_done {A B} (o : outcome A) (f : A -> prog B) c : (forall a, o = Ret a -> asks (f a) <= c) -> asks (pbind (PDone o) f) <= c.
Proof. intros H. rewrite asks_bind. cbn. destruct o; [apply H; reflexivity|lia..]. Qed.

Lemma asks_get {B} ts (f : stats -> prog B) c : (forall a, asks (f a) <= c) -> asks (pbind (get_stats ts) f) <= S c.
Proof. intros H. rewrite asks_bind. cbn. destruct (answer samples init (NoPairs ts)) as [a| |]; [specialize (H a)|..]; lia. Qed.
Lemma asks_get_pairs {B} ts (f : stats -> prog B) c : (forall a, asks (f a) <= c) -> asks (pbind (get_stats_with_pairs ts) f) <= S c.
Proof. intros H. rewrite asks_bind. cbn. destruct (answer samples init (WithPairs ts)) as [a| |]; [specialize (H a)|..]; lia. Qed.

Lemma asks_add ts : asks (opt_add_token bo ts) <= 1.
Proof.
  unfold opt_add_token. apply asks_get_pairs. intros s. apply asks_done. intros x _. apply asks_done. intros y _. apply le_n.
Qed.

Lemma asks_seq {A B} (m : prog A) (f : A -> prog B) c d : asks m <= c -> (forall a, outcome_of samples init m = Ret a -> asks (f a) <= d) -> asks (pbind m f) <= c + d.
Proof. intros H1 H2. rewrite asks_bind. destruct (outcome_of samples init m) as [a| |]; [specialize (H2 a eq_refl)|..]; lia. Qed.

Lemma asks_trade ts n s : asks (trade_byte bo ts n s) <= 2.
Proof.
  unfold trade_byte. apply asks_done. intros m _. destruct (min_bytes_ext_tokens ts <? m); [|cbn; lia].
  apply asks_done. intros m1 _. apply asks_done. intros new _. apply asks_done. intros n1 _. apply asks_done. intros _ _.
  apply asks_get_pairs. intros s1. apply asks_done. intros [(t1 & c1)|] _; [|cbn; lia]. apply asks_get. intros s2. cbn. lia.
Qed.

Lemma asks_replace ts n s l : forall rc, asks (replace_loop bo ts n s l rc) <= 2 * length l.
Proof.
  induction l as [|x l IH]; intros rc; [cbn; lia|]. cbn [replace_loop length].
  apply asks_done. intros i _. apply asks_done. intros new _. apply asks_done. intros n1 _. apply asks_done. intros _ _.
  replace (2 * S (length l)) with (1 + S (2 * length l)) by lia. apply asks_seq; [apply asks_add|]. intros [newer|] _; [|specialize (IH (sinsert rc x (match sget rc x with Some k => k | None => 0 end + 1))); lia].
  apply asks_get. intros s2. destruct (total_tokens s2 <? total_tokens s); [cbn; lia|apply IH].
Qed.

Hypothesis Hord : shuffles order.

Lemma candidates_le (l : list token) : length (flat_map (fun t => match t with Str x => if 1 <? length x then [x] else [] | Ext _ => [] end) l) <= length l.
Proof. induction l as [|[x|d] l IH]; cbn [flat_map length app] in *; [lia| |lia]. destruct (1 <? length x); cbn [length app]; lia. Qed.

Lemma asks_round ts n rc : asks (optimization_step bo order ts n rc) <= 2 * n + 5.
Proof.
  unfold optimization_step. replace (2 * n + 5) with (S (S (2 * n + 3))) by lia. apply asks_get. intros s. apply asks_done. intros m _.
  apply asks_done. intros new _. apply asks_get. intros s1. destruct (total_tokens s1 <? total_tokens s); [cbn; lia|].
  replace (2 * n + 3) with ((2 * n + 3) + 0) by lia. apply asks_seq.
  - unfold remove_add_token. destruct (ntokens ts <? n).
    + replace (2 * n + 3) with (1 + (2 * n + 2)) by lia. apply asks_seq; [apply asks_add|]. intros [new'|] _; [|cbn; lia].
      replace (2 * n + 2) with (S (2 * n + 1)) by lia. apply asks_get. intros a. cbn. lia.
    + apply asks_done. intros u E. unfold assert_that in E. destruct (Nat.eqb_spec (ntokens ts) n) as [En|]; [|discriminate].
      replace (2 * n + 3) with (S (2 + 2 * n)) by lia. apply asks_get. intros a. apply asks_seq; [apply asks_trade|].
      intros [z|] _; [cbn; lia|]. eapply Nat.le_trans; [apply asks_replace|].
      rewrite (Permutation_length (Hord _ _)). pose proof (candidates_le (tokens ts)) as J. unfold ntokens in En. lia.
  - intros ([s2|] & rc') _; [|cbn; lia]. apply asks_done. intros _ _. cbn. lia.
Qed.
End Round.

(** ** All rounds *)
Section Rounds.
Variables (samples : list bstr) (init : option nat) (t : token_type) (p : processing) (sp : bool).
Variables (order : smap nat -> list bstr -> list bstr) (clock : nat -> bool) (n : nat).
Hypothesis Hsp : t = BytesHuff -> sp = true.
Hypothesis Hord : shuffles order.
Hypothesis Hn : is_bits t -> n <= hi t.
Local Notation asks := (asks_of samples init).
Local Notation loop := (optimize_loop (optimizer_for t) order clock).

Lemma Hin : forall m l x, In x (order m l) -> In x l.
Proof. intros m l x. apply Permutation_in, Hord. Qed.

(** Each round but the last adds a token or saves one. *)
Lemma loop_asks : forall fuel round ts rc N, fits t p sp n ts -> calm t n ts -> total_for ts samples N -> (n - ntokens ts) + N < fuel ->
  exists ts' N', outcome_of samples init (loop fuel round ts n rc) = Ret ts' /\ fits t p sp n ts' /\ total_for ts' samples N' /\
    ntokens ts <= ntokens ts' /\ N' <= N /\ asks (loop fuel round ts n rc) <= ((ntokens ts' - ntokens ts) + (N - N') + 1) * (2 * n + 5).
Proof.
  induction fuel as [|fuel IH]; intros round ts rc N F C HN Hf; [lia|]. cbn [optimize_loop].
  destruct (ok_outcome _ _ _ _ _ (step_ok samples init t p sp order n Hsp Hin Hn ts rc (fun _ => True)
     (fun x => match fst x with Some ts' => fits t p sp n ts' /\ better samples t n ts ts' | None => True end) F (fun _ => I) ltac:(intros ts' rc' Ha Hb; split; assumption))) as ((o & rc') & E & Q).
  cbn [fst] in Q. pose proof (asks_round samples init (optimizer_for t) order Hord ts n rc) as J.
  rewrite outcome_bind, asks_bind, E. cbn [bind]. destruct o as [ts'|].
  - destruct Q as (F' & B). destruct (total_exists samples ts' (vi_usable _ _ _ _ (proj1 F'))) as (N' & HN').
    pose proof (proj2 B N N' HN HN') as D. pose proof (proj1 B C) as C'. destruct F as (V & Hle). destruct F' as (V' & Hle').
    assert (D' : ntokens ts <= ntokens ts' /\ N' <= N /\ (ntokens ts < ntokens ts' \/ N' < N)) by (destruct D as [(D1 & D2)|(D1 & D2)]; [specialize (D2 C)|]; lia).
    destruct (IH (S round) ts' rc' N' (conj V' Hle') C' HN') as (te & Ne & E1 & Fe & Te & G1 & G2 & G3); [lia|].
    exists te, Ne. assert (G4 : asks (loop fuel (S round) ts' n rc') + (2 * n + 5) <= (ntokens te - ntokens ts + (N - Ne) + 1) * (2 * n + 5)).
    { replace (ntokens te - ntokens ts + (N - Ne) + 1) with (S (ntokens te - ntokens ts + (N - Ne))) by lia. cbn [Nat.mul].
      assert ((ntokens te - ntokens ts' + (N' - Ne) + 1) * (2 * n + 5) <= (ntokens te - ntokens ts + (N - Ne)) * (2 * n + 5)) by (apply Nat.mul_le_mono_r; lia). lia. }
    destruct (clock round); cbn [outcome_of asks_of]; (split; [exact E1|]; split; [exact Fe|]; split; [exact Te|]; split; [lia|]; split; lia).
  - exists ts, N. cbn [outcome_of asks_of pret]. split; [reflexivity|]. split; [exact F|]. split; [exact HN|]. split; [lia|]. split; [lia|].
    replace (ntokens ts - ntokens ts + (N - N) + 1) with 1 by lia. rewrite Nat.mul_1_l. lia.
Qed.

(** Without the condition on the starting set: a token more may make the data longer. *)
Lemma loop_asks_any : forall fuel round ts rc N, fits t p sp n ts -> total_for ts samples N ->
  asks (loop fuel round ts n rc) <= S ((n - ntokens ts) * S (bound samples) + N) * (2 * n + 5).
Proof.
  induction fuel as [|fuel IH]; intros round ts rc N F HN; [cbn; lia|]. cbn [optimize_loop].
  destruct (ok_outcome _ _ _ _ _ (step_ok samples init t p sp order n Hsp Hin Hn ts rc (fun _ => True)
     (fun x => match fst x with Some ts' => fits t p sp n ts' /\ better samples t n ts ts' | None => True end) F (fun _ => I) ltac:(intros ts' rc' Ha Hb; split; assumption))) as ((o & rc') & E & Q).
  cbn [fst] in Q. pose proof (asks_round samples init (optimizer_for t) order Hord ts n rc) as J.
  rewrite asks_bind, E. destruct o as [ts'|].
  - destruct Q as (F' & B). destruct (total_exists samples ts' (vi_usable _ _ _ _ (proj1 F'))) as (N' & HN').
    pose proof (proj2 B N N' HN HN') as D. pose proof (visited_total_bound _ _ _ _ _ _ (proj1 F') HN') as Hb. fold (bound samples) in Hb.
    specialize (IH (S round) ts' rc' N' F' HN'). destruct F as (V & Hle). destruct F' as (V' & Hle').
    assert (M : S ((n - ntokens ts') * S (bound samples) + N') <= (n - ntokens ts) * S (bound samples) + N).
    { destruct D as [(H & _)|(H & H')].
      - replace (n - ntokens ts) with (S (n - ntokens ts - 1)) by lia.
        assert (Hx : (n - ntokens ts') * S (bound samples) <= (n - ntokens ts - 1) * S (bound samples)) by (apply Nat.mul_le_mono_r; lia).
        cbn [Nat.mul]. lia.
      - assert (Hx : (n - ntokens ts') * S (bound samples) <= (n - ntokens ts) * S (bound samples)) by (apply Nat.mul_le_mono_r; lia). lia. }
    assert (G : asks (loop fuel (S round) ts' n rc') <= ((n - ntokens ts) * S (bound samples) + N) * (2 * n + 5)).
    { eapply Nat.le_trans; [exact IH|]. apply Nat.mul_le_mono_r. exact M. }
    set (X := (n - ntokens ts) * S (bound samples) + N) in *. clearbody X. cbn [Nat.mul].
    destruct (clock round); cbn [asks_of]; lia.
  - cbn [asks_of pret]. set (X := (n - ntokens ts) * S (bound samples) + N). clearbody X. cbn [Nat.mul]. lia.
Qed.
End Rounds.

(** ** The whole optimization *)
Lemma initial_parts samples init n p t pre ts0 : supported t n -> good_start n p t pre -> initial samples init n p t pre ts0 ->
  outcome_of samples init (initial_set n p t pre) = Ret ts0 /\ asks_of samples init (initial_set n p t pre) <= 1 /\
  exists sp, (t = BytesHuff -> sp = true) /\ fits t p sp n ts0.
Proof.
  intros Hs Hp H0. destruct (supported_bounds _ _ Hs) as (Hlo & _). destruct pre as [ts|].
  - cbn in H0. subst ts0. split; [reflexivity|]. split; [cbn; lia|].
    destruct (good_start_flag _ _ _ _ Hp) as (sp & V & Hsp & Hn). exists sp. split; [exact Hsp|]. split; assumption.
  - destruct (is_huff_dec t) as [->|Eh].
    + destruct (initial_huff _ _ _ _ _ Hlo H0) as (F & _). destruct H0 as (s & Fs & E). apply fresh_answer_iff in Fs.
      unfold initial_set. cbn [outcome_of asks_of get_stats pbind pret]. rewrite Fs. rewrite E. cbn. split; [reflexivity|]. split; [lia|]. eauto.
    + assert (E : first_set p t = Some ts0) by (destruct t; [exact H0..|congruence]).
      destruct (first_visited p t ts0 E) as (V & En & _).
      assert (Ei : initial_set n p t None = pret ts0).
      { clear - E Eh. destruct t; cbn [first_set] in E; try congruence; unfold initial_set; f_equal; congruence. }
      rewrite Ei. split; [reflexivity|]. split; [cbn; lia|]. exists true. split; [reflexivity|]. split; [exact V|lia].
Qed.

Section Whole.
Variables (threads : nat) (total : N) (samples : list bstr) (init : option nat) (order : smap nat -> list bstr -> list bstr)
  (clock : nat -> bool) (n : nat) (p : processing) (t : token_type) (pre : option tokenset) (rounds : nat) (ts0 : tokenset) (N0 : nat).
Hypotheses (Ht : 1 <= threads) (Ho : shuffles order) (Hs : supported t n) (Hp : good_start n p t pre)
  (Hr : round_bound samples n <= rounds) (H0 : initial samples init n p t pre ts0) (HN : min_total ts0 samples N0).
Local Notation asks := (asks_of samples init).
Local Notation program := (optimize_tokenset order clock rounds n p t pre).

Lemma program_split : asks program <= 3 + asks (optimize_loop (optimizer_for t) order clock rounds 0 ts0 n []).
Proof using Hs Hp H0.
  clear Ht Hr. destruct (initial_parts _ _ _ _ _ _ _ Hs Hp H0) as (E & J & _). unfold optimize_tokenset. rewrite asks_bind, E. unfold optimize_impl.
  pose proof (asks_get1 samples init ts0) as G.
  rewrite asks_bind. destruct (outcome_of samples init (get_stats ts0)) as [s0| |]; [|lia..]. rewrite asks_bind.
  destruct (outcome_of samples init (optimize_loop (optimizer_for t) order clock rounds 0 ts0 n [])) as [ts1| |]; [|lia..].
  rewrite asks_bind. cbn [asks_of outcome_of]. destruct (ts_sort ts1) as [ts2| |]; [|lia..].
  pose proof (asks_get1 samples init ts2). lia.
Qed.

Lemma asked_le asked read m : counting threads total samples init (mkMachine [] [] program) asked read m -> asked <= asks program.
Proof using Ht Ho Hs Hp Hr.
  intros C. pose proof (counting_asks _ threads total samples init _ _ Ht (optimize_okT samples init order clock n p t pre rounds Ho Hs Hp Hr) _ _ _ C). lia.
Qed.

Lemma calm_start : t <> BytesHuff \/ pre = None \/ no_room n ts0 -> calm t n ts0.
Proof using Hs Hp H0.
  intros Hh. destruct (is_huff_dec t) as [Eh|Eh]; [|left; left; exact Eh]. apply calm_no_room; [exact Eh|].
  destruct Hh as [Hh|[Hh|Hh]]; [congruence| |exact Hh]. subst pre. subst t. eapply initial_huff; [apply Hs|exact H0].
Qed.

Lemma fuel_enough : (n - ntokens ts0) + N0 < rounds.
Proof using Hs Hp Hr H0 HN.
  destruct (initial_parts _ _ _ _ _ _ _ Hs Hp H0) as (_ & _ & sp & _ & (V & _)).
  pose proof (visited_total_bound _ _ _ _ _ _ V (proj2 (total_for_min _ _ _) HN)) as Hb. unfold round_bound in Hr.
  revert Hr. cbv zeta. set (b := 258 * length (concat samples)) in *. clearbody b. intros Hr.
  assert (J : n * 1 <= n * S b) by (apply Nat.mul_le_mono_l, le_n_S, Nat.le_0_l). clear - Hr Hb J. lia.
Qed.

Lemma program_asks : t <> BytesHuff \/ pre = None \/ no_room n ts0 ->
  exists ts1 N1, outcome_of samples init (optimize_loop (optimizer_for t) order clock rounds 0 ts0 n []) = Ret ts1 /\
    ntokens ts0 <= ntokens ts1 <= n /\ N1 <= N0 /\ total_for ts1 samples N1 /\ (exists sp, visited t p sp ts1) /\
    asks program <= 3 + (ntokens ts1 - ntokens ts0 + (N0 - N1) + 1) * (2 * n + 5).
Proof using Ho Hs Hp Hr H0 HN.
  intros Hh. destruct (initial_parts _ _ _ _ _ _ _ Hs Hp H0) as (_ & _ & sp & Hsp & F). destruct (supported_bounds _ _ Hs) as (_ & Hhi).
  destruct (loop_asks samples init t p sp order clock n Hsp Ho Hhi rounds 0 ts0 [] N0 F (calm_start Hh) (proj2 (total_for_min _ _ _) HN) fuel_enough)
    as (ts1 & N1 & E & F1 & T1 & G1 & G2 & G3).
  exists ts1, N1. split; [exact E|]. split; [split; [exact G1|apply F1]|]. split; [exact G2|]. split; [exact T1|]. split; [exists sp; apply F1|].
  pose proof program_split as PS. clear - PS G3. lia.
Qed.
End Whole.

(** ** C106 *)

(** Requests made of the cache in an optimization with target [n] that starts from [ts0]:
    at most [2 * n + 5] for every round, and every round but the last adds a token to the
    set or saves at least one token of the encoded data. *)
Theorem C106_requests : forall threads total samples init order clock n p t pre rounds ts0 N0 asked read m,
  1 <= threads -> shuffles order -> supported t n -> good_start n p t pre -> round_bound samples n <= rounds ->
  initial samples init n p t pre ts0 -> min_total ts0 samples N0 ->
  t <> BytesHuff \/ pre = None \/ no_room n ts0 ->
  counting threads total samples init (mkMachine [] [] (optimize_tokenset order clock rounds n p t pre)) asked read m ->
  asked <= 3 + (n - ntokens ts0 + N0 + 1) * (2 * n + 5) /\
  forall s, returned m s -> ntokens ts0 <= ntokens (st_token_set s) /\ total_tokens s <= N0 /\
    asked <= 3 + (ntokens (st_token_set s) - ntokens ts0 + (N0 - total_tokens s) + 1) * (2 * n + 5).
Proof.
  intros threads total samples init order clock n p t pre rounds ts0 N0 asked read m Ht Ho Hs Hp Hr H0 HN Hh C.
  pose proof (asked_le threads total samples init order clock n p t pre rounds Ht Ho Hs Hp Hr _ _ _ C) as J.
  destruct (program_asks samples init order clock n p t pre rounds ts0 N0 Ho Hs Hp Hr H0 HN Hh) as (ts1 & N1 & E1 & (G1 & G1') & G2 & T1 & (sp & V1) & G3).
  split.
  - eapply Nat.le_trans; [exact J|]. eapply Nat.le_trans; [exact G3|]. apply Nat.add_le_mono_l, Nat.mul_le_mono_r. lia.
  - intros s R. pose proof (counting_steps _ _ _ _ _ _ _ _ C) as M.
    destruct (returned_outcome _ _ _ _ _ _ _ _ _ _ _ _ _ Ht Ho Hs Hp Hr M R) as (E & _).
    destruct (initial_parts _ _ _ _ _ _ _ Hs Hp H0) as (Ei & _). unfold optimize_tokenset in E. rewrite outcome_bind, Ei in E. cbn [bind] in E.
    unfold optimize_impl in E. rewrite outcome_bind in E.
    destruct (outcome_of samples init (get_stats ts0)) as [z| |]; cbn [bind] in E; try discriminate. rewrite outcome_bind, E1 in E. cbn [bind] in E.
    destruct (ts_sort_total ts1 (visited_range _ _ _ _ V1)) as (ts2 & Es). rewrite out_done, Es in E. cbn [bind] in E.
    destruct (visited_sort _ _ _ _ _ V1 Es) as (V2 & N2 & _).
    assert (Fa : fresh_answer samples init (NoPairs ts2) s).
    { apply fresh_answer_iff. revert E. cbn. destruct (answer samples init (NoPairs ts2)); cbn; congruence. }
    destruct (fresh_answered samples init t p sp (NoPairs ts2) s V2 Fa) as (A & _). cbn [requested] in A.
    assert (T2 : total_for ts1 samples (total_tokens s)).
    { eapply total_same; [|exact (an_total A)|apply (vi_usable _ _ _ _ V1)]. apply same_dict_sym, sv_same_dict, ts_sort_sorted. exact Es. }
    rewrite (total_unique _ _ _ _ T2 T1), (an_ntokens A), N2. split; [exact G1|]. split; [exact G2|]. lia.
Qed.

(** A byteshuff set that leaves room for more byte tokens may get longer encodings at first. *)
Theorem C106_requests_any_start : forall threads total samples init order clock n p t pre rounds asked read m,
  1 <= threads -> shuffles order -> supported t n -> good_start n p t pre -> round_bound samples n <= rounds ->
  counting threads total samples init (mkMachine [] [] (optimize_tokenset order clock rounds n p t pre)) asked read m ->
  asked <= 3 + (n * (1 + 258 * length (concat samples)) + 258 * length (concat samples) + 1) * (2 * n + 5).
Proof.
  intros threads total samples init order clock n p t pre rounds asked read m Ht Ho Hs Hp Hr C.
  pose proof (asked_le threads total samples init order clock n p t pre rounds Ht Ho Hs Hp Hr _ _ _ C) as J.
  assert (I0 : exists ts0, initial samples init n p t pre ts0).
  { destruct pre as [ts|]; [exists ts; reflexivity|]. destruct t; [eexists; reflexivity..|].
    destruct (supported_bounds _ _ Hs) as (Hlo & _). destruct (visited_bytes p) as (V & _ & _).
    destruct (answer_total samples init (NoPairs (new_bytes p))) as (s & Es); [apply (visited_askable Bytes p true); exact V|].
    apply fresh_answer_iff in Es. revert V Es. cbn [initial]. generalize (new_bytes p). intros tb V Es.
    destruct (fresh_answered samples init Bytes p true (NoPairs tb) s V Es) as (A & _). pose proof (an_visited A) as V1.
    destruct (huff_bytes_visited p true s n eq_refl (visited_single _ _ _ _ V1) (vi_usable _ _ _ _ V1) (vi_proc _ _ _ _ V1) Hlo) as (ts & E & _). eauto. }
  destruct I0 as (ts0 & H0). destruct (initial_parts _ _ _ _ _ _ _ Hs Hp H0) as (_ & _ & sp & Hsp & F). destruct (supported_bounds _ _ Hs) as (_ & Hhi).
  destruct (total_exists samples ts0 (vi_usable _ _ _ _ (proj1 F))) as (N & HN).
  pose proof (loop_asks_any samples init t p sp order clock n Hsp Ho Hhi rounds 0 ts0 [] N F HN) as K.
  pose proof (program_split samples init order clock n p t pre rounds ts0 Hs Hp H0) as K2.
  pose proof (visited_total_bound _ _ _ _ _ _ (proj1 F) HN) as Hb. unfold bound in K.
  set (b := 258 * length (concat samples)) in *. clearbody b.
  assert (K3 : S ((n - ntokens ts0) * S b + N) * (2 * n + 5) <= (n * (1 + b) + b + 1) * (2 * n + 5)).
  { apply Nat.mul_le_mono_r. assert ((n - ntokens ts0) * S b <= n * S b) by (apply Nat.mul_le_mono_r; lia). change (1 + b) with (S b). lia. }
  lia.
Qed.

(** The data are tokenized at most once for every request, and the cache holds at most one
    entry for every time the data were tokenized. *)
Theorem C106_cache_size : forall threads total samples init A (prog : prog A) asked read m,
  counting threads total samples init (mkMachine [] [] prog) asked read m ->
  read <= asked /\
  forall keys, NoDup keys -> (forall k, In k keys -> sget (m_cache m) k <> None) -> length keys <= read.
Proof.
  intros threads total samples init A prog0 asked read m C.
  assert (R : read <= asked /\ length (m_cache m) <= read).
  { remember (mkMachine [] [] prog0) as m0 eqn:E0.
    induction C as [|a k c sv r f s c' H (I1 & I2) Hin Hc|a k c sv r f s c' H (I1 & I2) Hin Hc|a k c sv ts f H (I1 & I2)]; cbn [m_cache] in *.
    - subst m0. cbn. lia.
    - split; [lia|]. destruct Hc as [c ts ts' s k0|c ts ts' s k0|c ts ts' s k0 F1 F2 F3 F4]; [destruct Hin|exact I2|].
      destruct Hin as (u1 & u2 & u3 & G1 & G2 & G3). rewrite F1 in G1. injection G1 as <-. rewrite F2 in G2. injection G2 as <-. congruence.
    - split; [lia|]. destruct Hc as [c ts ts' s k0|c ts ts' s k0|c ts ts' s k0]; unfold sinsert; cbn [length]; lia.
    - split; assumption. }
  destruct R as (R1 & R2). split; [exact R1|]. intros keys Hd Hk. eapply Nat.le_trans; [|exact R2].
  rewrite <- (map_length fst (m_cache m)). apply NoDup_incl_length; [exact Hd|]. intros k Hi. specialize (Hk k Hi).
  revert Hk. generalize (m_cache m). intros l. induction l as [|(k0 & v) l IH]; cbn; [congruence|].
  destruct (bstr_eqb_spec k k0) as [->|]; [left; reflexivity|]. intros Hk. right. apply IH, Hk.
Qed.

(** Every execution is counted. *)
Theorem C106_every_execution : forall threads total samples init order clock n p t pre rounds m,
  optimizing threads total samples init order clock n p t pre rounds m <->
  exists asked read, counting threads total samples init (mkMachine [] [] (optimize_tokenset order clock rounds n p t pre)) asked read m.
Proof.
  intros. split; [apply steps_counting|]. intros (a & k & C). exact (counting_steps _ _ _ _ _ _ _ _ C).
Qed.

(** A finished execution with a bits1 set of 10 tokens: at most 3 + (10 - 2 + N0 + 1) * 25 requests. *)
Example C106_hypotheses_met : exists ts0 N0 asked read m s,
  shuffles (fun _ l => l) /\ supported Bits1 10 /\ good_start 10 Raw Bits1 None /\
  initial [[x61; x62]; [x61]] None 10 Raw Bits1 None ts0 /\ min_total ts0 [[x61; x62]; [x61]] N0 /\
  counting 4 3 [[x61; x62]; [x61]] None
    (mkMachine [] [] (optimize_tokenset (fun _ l => l) (fun _ => true) (round_bound [[x61; x62]; [x61]] 10) 10 Raw Bits1 None)) asked read m /\
  returned m s.
Proof.
  destruct C42_hypotheses_met as (H1 & _ & _ & H2 & _ & _ & _ & H3 & _ & m & s & M & R).
  apply C106_every_execution in M as (asked & read & C).
  assert (E : first_set Raw Bits1 = Some (new_bits1 Raw true)) by reflexivity.
  destruct (first_visited Raw Bits1 _ E) as (V & _).
  assert (I0 : initial [[x61; x62]; [x61]] None 10 Raw Bits1 None (new_bits1 Raw true)) by exact E.
  revert V I0. generalize (new_bits1 Raw true). intros ts0 V I0.
  destruct (total_exists [[x61; x62]; [x61]] ts0 (vi_usable _ _ _ _ V)) as (N0 & HN). apply total_for_min in HN.
  exists ts0, N0, asked, read, m, s. split; [exact H1|]. split; [exact H2|]. split; [exact H3|]. split; [exact I0|]. split; [exact HN|]. split; [exact C|exact R].
Qed.
