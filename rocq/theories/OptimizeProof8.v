(** * Histories of saved token sets. *)
From Coq Require Import ZArith.
From Verif Require Import Base BaseLemmas TokenSetModel TokenizerModel TokSpec SortLemmas TokenizerProof1 TokenizerProof2
  TokenizerTheory TokenSetProof TokenSetProof2 PropTokenizer PropTokenSet StatsAlgebra BatchModel PropBatch
  PropJson Shaped CacheModel PropCache OptBytesModel OptBytesProof OptBytesProof2
  OptBytesProof3 OptBytesProof4 PropOptBytes OptimizeModel OptimizeProof1 OptimizeProof2 OptimizeProof3 OptimizeProof4 OptimizeProof5 OptimizeProof6
  OptimizeProof7.

(** Like [ok], but with the list of sets saved so far. *)
Fixpoint okT {A} (samples : list bstr) (init : option nat) (p : prog A) (sv : list tokenset)
  (I : list tokenset -> Prop) (Q : list tokenset -> A -> Prop) : Prop :=
  match p with
  | PDone o => I sv /\ exists a, o = Ret a /\ Q sv a
  | PAsk r k => I sv /\ askable r /\ forall a, fresh_answer samples init r a -> okT samples init (k a) sv I Q
  | PSave ts k => I sv /\ okT samples init k (sv ++ [ts]) I Q
  end.

Lemma okT_bind {A B} samples init (m : prog A) (f : A -> prog B) sv I Q :
  okT samples init m sv I (fun sv' a => okT samples init (f a) sv' I Q) -> okT samples init (pbind m f) sv I Q.
Proof.
  revert sv. induction m as [o|r k IH|ts k IH]; intros sv; cbn.
  - intros (_ & a & -> & H). exact H.
  - intros (H0 & Ha & H). split; [exact H0|]. split; [exact Ha|]. intros a Hf. apply IH. auto.
  - intros (H1 & H2). auto.
Qed.

Lemma okT_mono {A} samples init (p : prog A) (I I' : list tokenset -> Prop) (Q Q' : list tokenset -> A -> Prop) :
  (forall l, I l -> I' l) -> (forall l a, Q l a -> Q' l a) -> forall sv, okT samples init p sv I Q -> okT samples init p sv I' Q'.
Proof.
  intros HI HQ. induction p as [o|r k IH|ts k IH]; intros sv; cbn.
  - intros (H0 & a & E & H). split; eauto.
  - intros (H0 & Ha & H). split; [auto|]. split; [exact Ha|]. intros a Hf. apply IH. auto.
  - intros (H1 & H2). auto.
Qed.

(** Programs that save nothing *)
Lemma ok_okT {A} samples init (p : prog A) (Q : A -> Prop) sv (I : list tokenset -> Prop) : ok samples init p (fun _ => False) Q -> I sv ->
  okT samples init p sv I (fun sv' a => sv' = sv /\ Q a).
Proof.
  intros H HI. induction p as [o|r k IH|ts k IH]; cbn in *.
  - destruct H as (a & E & H). split; [exact HI|]. exists a. auto.
  - destruct H as (Ha & H). split; [exact HI|]. split; [exact Ha|]. intros a Hf. apply IH. auto.
  - destruct H as ([] & _).
Qed.

Section Sound.
Variables (n : nat) (total : N) (samples : list bstr) (init : option nat).
Hypothesis Hn : 1 <= n.

Theorem okT_sound {A} (p : prog A) I (Q : list tokenset -> A -> Prop) : okT samples init p [] I Q ->
  forall m, steps n total samples init (mkMachine [] [] p) m ->
  I (m_saved m) /\ forall a, m_prog m = PDone (Ret a) -> Q (m_saved m) a.
Proof.
  intros Hok m Hst.
  assert (R : (exists h, history n total samples init h (m_cache m) /\ forall r a, In (r, a) h -> exists ss, shaped (requested r) ss) /\
              okT samples init (m_prog m) (m_saved m) I Q).
  { assert (R0 : (exists h, history n total samples init h (m_cache (mkMachine (A := A) [] [] p)) /\ forall r a, In (r, a) h -> exists ss, shaped (requested r) ss) /\
              okT samples init (m_prog (mkMachine (A := A) [] [] p)) (m_saved (mkMachine (A := A) [] [] p)) I Q).
    { split; cbn [m_cache m_saved m_prog]; [|exact Hok]. exists []. split; [constructor|intros r a []]. }
    revert R0. generalize dependent (mkMachine (A := A) [] [] p). intros m0 Hst R0.
    induction Hst as [m|m1 m2 m3 _ IH Hs]; [exact R0|]. specialize (IH R0). clear R0. destruct IH as ((h & Hh & Hsh) & H3).
    destruct Hs as [c sv r k a c' Hc|c sv ts k]; cbn [m_cache m_saved m_prog] in *.
    - destruct H3 as (_ & (Ha & Hu) & H3).
      assert (Hh' : history n total samples init (h ++ [(r, a)]) c') by (econstructor; eauto).
      assert (Hs' : forall r0 a0, In (r0, a0) (h ++ [(r, a)]) -> exists ss, shaped (requested r0) ss).
      { intros r0 a0 Hi. apply in_app_iff in Hi as [Hi|[Hi|[]]]; [eapply Hsh; exact Hi|]. injection Hi as <- <-. exact Ha. }
      split; [eauto|]. apply H3.
      eapply (C15_cache_is_transparent n total samples init _ c' Hn Hh' Hs'). apply in_app_iff; right; left; reflexivity.
    - split; [eauto|]. apply H3. }
  destruct R as (_ & R). destruct (m_prog m) as [o|r k|ts k]; cbn in R.
  - destruct R as (H0 & a & -> & H). split; [exact H0|]. intros a' E. injection E as <-. exact H.
  - split; [apply R|]. discriminate.
  - split; [apply R|]. discriminate.
Qed.
End Sound.

(** ** The loop *)
Section Loop.
Variables (samples : list bstr) (init : option nat) (t : token_type) (p : processing) (sp : bool).
Variables (order : smap nat -> list bstr -> list bstr) (clock : nat -> bool) (n : nat).
Hypothesis Hsp : t = BytesHuff -> sp = true.
Hypothesis Hord : forall m l x, In x (order m l) -> In x l.
Hypothesis Hn : is_bits t -> n <= hi t.

(** [ahead a b]: [b] comes at least one round after [a]. *)
Definition ahead (a b : tokenset) : Prop :=
  ntokens a <= ntokens b /\ (calm t n a -> calm t n b) /\ forall N N', total_for a samples N -> total_for b samples N' ->
  (ntokens a < ntokens b \/ N' < N) /\ (calm t n a -> N' <= N).

Lemma better_ahead a b : fits t p sp n a -> fits t p sp n b -> better samples t n a b -> ahead a b.
Proof.
  intros (Va & _) (Vb & _) (Hc & H).
  destruct (total_exists samples a (vi_usable _ _ _ _ Va)) as (N & HN). destruct (total_exists samples b (vi_usable _ _ _ _ Vb)) as (N' & HN').
  split; [destruct (H N N' HN HN'); lia|]. split; [exact Hc|]. intros M M' HM HM'. destruct (H M M' HM HM') as [(H1 & H2)|(H1 & H2)]; split; auto.
  intros _. lia.
Qed.

Lemma ahead_trans a b c : fits t p sp n b -> ahead a b -> ahead b c -> ahead a c.
Proof.
  intros (Vb & _) (H1 & C1 & H2) (H3 & C2 & H4). split; [lia|]. split; [auto|]. intros N N' HN HN'.
  destruct (total_exists samples b (vi_usable _ _ _ _ Vb)) as (M & HM).
  destruct (H2 N M HN HM) as (G1 & G2), (H4 M N' HM HN') as (G3 & G4). split; [lia|]. intros Hc. specialize (G2 Hc). specialize (G4 (C1 Hc)). lia.
Qed.

Lemma sorted_snoc {A} (R : A -> A -> Prop) l x : StronglySorted R l -> Forall (fun y => R y x) l -> StronglySorted R (l ++ [x]).
Proof.
  induction 1 as [|a l Hl IH Ha]; intros Hx; cbn; [repeat constructor|]. inversion Hx; subst.
  constructor; [auto|]. apply Forall_app. split; [exact Ha|]. constructor; [assumption|constructor].
Qed.

(** The sets saved by a loop entered with [ts]: each ahead of those before. *)
Definition chain (sv : list tokenset) : Prop := StronglySorted ahead sv.
Definition ends (sv : list tokenset) (ts : tokenset) : Prop := Forall (fun a => a = ts \/ ahead a ts) sv.

Lemma loop_okT ts0 : fits t p sp n ts0 -> forall fuel round ts rc N sv, fits t p sp n ts -> ts0 = ts \/ ahead ts0 ts -> chain sv -> Forall (ahead ts0) sv -> ends sv ts ->
  total_for ts samples N -> (n - ntokens ts) * S (bound samples) + N < fuel ->
  okT samples init (optimize_loop (optimizer_for t) order clock fuel round ts n rc) sv (fun l => chain (ts0 :: l))
    (fun l ts' => chain (ts0 :: l) /\ ends (ts0 :: l) ts' /\ fits t p sp n ts').
Proof.
  intros F0. induction fuel as [|fuel IH]; intros round ts rc N sv F D0 C C0 E HN Hf; [exfalso; apply (Nat.nlt_0_r _ Hf)|]. cbn [optimize_loop].
  assert (CC : chain (ts0 :: sv)) by (constructor; assumption).
  apply okT_bind. eapply okT_mono; [intros l Hl; exact Hl| |apply (ok_okT samples init _ (fun r => match fst r with None => True | Some ts' => fits t p sp n ts' /\ better samples t n ts ts' end)); [|exact CC]].
  2:{ apply (step_ok samples init t p sp order n Hsp Hord Hn); [exact F|intros rc'; exact I|]. intros ts' rc' F' B. split; assumption. }
  intros l r (-> & Hr). destruct r as [[ts'|] rc']; cbn [fst] in Hr.
  2:{ split; [exact CC|]. exists ts. split; [reflexivity|]. split; [exact CC|]. split; [|exact F]. constructor; [exact D0|exact E]. }
  destruct Hr as (F' & B). pose proof (better_ahead ts ts' F F' B) as A.
  destruct (total_exists samples ts' (vi_usable _ _ _ _ (proj1 F'))) as (N' & HN').
  assert (Hm : (n - ntokens ts') * S (bound samples) + N' < fuel).
  { pose proof (visited_total_bound _ _ _ _ _ _ (proj1 F') HN') as Hb. fold (bound samples) in Hb.
    destruct F as (_ & Hle). destruct F' as (_ & Hle').
    destruct (proj2 B N N' HN HN') as [(H & _)|(H & H')].
    - replace (n - ntokens ts) with (S (n - ntokens ts - 1)) in Hf by lia.
      assert (Hx : (n - ntokens ts') * S (bound samples) <= (n - ntokens ts - 1) * S (bound samples)) by (apply Nat.mul_le_mono_r; lia).
      cbn [Nat.mul] in Hf. lia.
    - assert (Hx : (n - ntokens ts') * S (bound samples) <= (n - ntokens ts) * S (bound samples)) by (apply Nat.mul_le_mono_r; lia). lia. }
  assert (D' : ahead ts0 ts') by (destruct D0 as [->|D0]; [exact A|exact (ahead_trans _ _ _ F ltac:(eassumption) A)]).
  assert (E' : Forall (fun a => ahead a ts') sv).
  { eapply Forall_impl; [|exact E]. intros a [->|Ha]; [exact A|exact (ahead_trans _ _ _ F ltac:(eassumption) A)]. }
  assert (E'' : ends sv ts') by (eapply Forall_impl; [|exact E']; intros a Ha; right; exact Ha).
  destruct (clock round).
  - split; [exact CC|]. eapply IH; [exact F'|right; exact D'| | | |exact HN'|exact Hm].
    + apply sorted_snoc; [exact C|exact E'].
    + apply Forall_app. split; [exact C0|]. constructor; [exact D'|constructor].
    + apply Forall_app. split; [exact E''|]. constructor; [left; reflexivity|constructor].
  - eapply IH; [exact F'|right; exact D'|exact C|exact C0|exact E''|exact HN'|exact Hm].
Qed.

(** Same dictionary: same totals, same size. *)
Definition same (a b : tokenset) : Prop := (ntokens a = ntokens b /\ n_long_tokens a = n_long_tokens b) /\ forall N, total_for a samples N <-> total_for b samples N.

Lemma impl_okT ts fuel : fits t p sp n ts -> rounds samples n <= fuel ->
  okT samples init (optimize_impl (optimizer_for t) order clock fuel ts n) [] (fun l => chain (ts :: l))
    (fun l s => chain (ts :: l) /\ exists ts1, ends (ts :: l) ts1 /\ same ts1 (st_token_set s) /\ fits t p sp n ts1 /\ fits t p sp n (st_token_set s)).
Proof.
  intros F Hf. unfold optimize_impl. pose proof F as (V & Hle).
  assert (C1 : chain [ts]) by (repeat constructor).
  split; [exact C1|]. split; [apply (visited_askable t p sp); exact V|]. intros s0 _. unfold pret at 1. cbn [pbind].
  destruct (total_exists samples ts (vi_usable _ _ _ _ V)) as (N & HN).
  pose proof (visited_total_bound _ _ _ _ _ _ V HN) as Hb. fold (bound samples) in Hb.
  apply okT_bind. eapply okT_mono; [intros l Hl; exact Hl| |apply (loop_okT ts F fuel 0 ts [] N []); auto; try constructor].
  - intros l ts1 (C & E & F1). cbn beta. destruct (ts_sort_total ts1 (visited_range _ _ _ _ (proj1 F1))) as (ts2 & Es).
    rewrite Es. cbn [pbind].
    destruct (visited_sort _ _ _ _ _ (proj1 F1) Es) as (V2 & N2 & L2).
    split; [exact C|]. split; [apply (visited_askable t p sp); exact V2|]. intros a Fa. cbn.
    destruct (fresh_answered samples init t p sp (NoPairs ts2) a V2 Fa) as (A & _). cbn [requested] in A.
    split; [exact C|]. exists a. split; [reflexivity|]. split; [exact C|]. exists ts1. split; [exact E|].
    assert (D : same_dict ts1 (st_token_set a)).
    { assert (D1 : same_dict ts1 ts2) by (apply sv_same_dict, ts_sort_sorted; exact Es).
      intros x c. rewrite (D1 x c), (an_dict A x c). reflexivity. }
    split; [split|split; [exact F1|]].
    + rewrite (an_ntokens A), (an_long A). split; symmetry; assumption.
    + intros M. split; intros HM.
      * eapply total_same; [exact D|exact HM|apply (vi_usable _ _ _ _ (an_visited A))].
      * eapply total_same; [apply same_dict_sym; exact D|exact HM|apply (vi_usable _ _ _ _ (proj1 F1))].
    + split; [apply (an_visited A)|]. rewrite (an_ntokens A), N2. apply F1.
  - unfold rounds in Hf. assert (Hx : (n - ntokens ts) * S (bound samples) <= n * S (bound samples)) by (apply Nat.mul_le_mono_r; lia). lia.
Qed.
End Loop.
