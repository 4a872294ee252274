(** * The search with machine arithmetic does what the search does. *)
From Coq Require Import ZArith.
From Verif Require Import Base BaseLemmas TokenSetModel TokenizerModel TokSpec SortLemmas TokenizerProof1 TokenizerProof2
  TokenizerTheory TokenSetProof TokenSetProof2 PropTokenizer PropTokenSet StatsAlgebra BatchModel PropBatch
  PropJson Shaped CacheModel PropCache OptBytesModel OptBytesProof OptBytesProof2
  OptBytesProof3 OptBytesProof4 PropOptBytes OptimizeModel OptimizeProof1 OptimizeProof2 OptimizeProof3 OptimizeProof4 OptimizeProof5 OptimizeProof6
  OptimizeProof7 OptimizeProof8 PropOptimize OverflowModel PropOverflow OverflowOptModel OverflowOptProof1 OverflowOptProof2.

Section Sim.
Variables (M : nat) (samples : list bstr) (init : option nat).

(** Both programs ask the same questions, save the same sets and return the
    same result. *)
Fixpoint sim {A} (p q : prog A) (Q : A -> Prop) {struct p} : Prop :=
  match p, q with
  | PDone o, PDone o' => exists a, o = Ret a /\ o' = Ret a /\ Q a
  | PAsk r k, PAsk r' k' => r' = r /\ (exists t p sp, visited t p sp (requested r)) /\
      ntokens (requested r) * ntokens (requested r) <= M /\
      forall a, fresh_answer samples init r a -> sim (k a) (k' a) Q
  | PSave ts k, PSave ts' k' => ts' = ts /\ sim k k' Q
  | _, _ => False
  end.

Lemma sim_bind {A B} (m m' : prog A) (f f' : A -> prog B) Q :
  sim m m' (fun a => sim (f a) (f' a) Q) -> sim (pbind m f) (pbind m' f') Q.
Proof.
  revert m'. induction m as [o|r k IH|ts k IH]; intros [o'|r' k'|ts' k']; cbn; try contradiction.
  - intros (a & -> & -> & H). exact H.
  - intros (H0 & H1 & H2 & H). split; [exact H0|]. split; [exact H1|]. split; [exact H2|]. intros a Hf. apply IH. auto.
  - intros (H1 & H2). auto.
Qed.

Lemma sim_mono {A} (p q : prog A) (Q Q' : A -> Prop) : (forall a, Q a -> Q' a) -> sim p q Q -> sim p q Q'.
Proof.
  intros HQ. revert q. induction p as [o|r k IH|ts k IH]; intros [o'|r' k'|ts' k']; cbn; try contradiction.
  - intros (a & E & E' & H). eauto.
  - intros (H0 & H1 & H2 & H). split; [exact H0|]. split; [exact H1|]. split; [exact H2|]. intros a Hf. apply IH. auto.
  - intros (H1 & H2). auto.
Qed.

Lemma sim_done {A A' B} (o : outcome A) (o' : outcome A') a a' (f : A -> prog B) (f' : A' -> prog B) Q :
  o = Ret a -> o' = Ret a' -> sim (f a) (f' a') Q -> sim (pbind (PDone o) f) (pbind (PDone o') f') Q.
Proof. intros -> -> H. exact H. Qed.

Lemma sim_ret {A} (a : A) (Q : A -> Prop) : Q a -> sim (pret a) (pret a) Q.
Proof. intros H. exists a. auto. Qed.

Lemma sim_stats {B} t p sp ts (f f' : stats -> prog B) Q : visited t p sp ts -> ntokens ts * ntokens ts <= M ->
  (forall a, fresh_answer samples init (NoPairs ts) a -> sim (f a) (f' a) Q) ->
  sim (pbind (get_stats ts) f) (pbind (get_stats ts) f') Q.
Proof. intros V N H. split; [reflexivity|]. split; [exists t, p, sp; exact V|]. split; [exact N|]. intros a Ha. cbn. auto. Qed.

Lemma sim_stats_pairs {B} t p sp ts (f f' : stats -> prog B) Q : visited t p sp ts -> ntokens ts * ntokens ts <= M ->
  (forall a, fresh_answer samples init (WithPairs ts) a -> sim (f a) (f' a) Q) ->
  sim (pbind (get_stats_with_pairs ts) f) (pbind (get_stats_with_pairs ts) f') Q.
Proof. intros V N H. split; [reflexivity|]. split; [exists t, p, sp; exact V|]. split; [exact N|]. intros a Ha. cbn. auto. Qed.
End Sim.

Section Search.
Variables (bd : build) (M : nat) (samples : list bstr) (init : option nat) (t : token_type) (p : processing) (sp : bool).
Variables (order : smap nat -> list bstr -> list bstr) (clock : nat -> bool) (n : nat).
Local Notation L := (length (concat samples)).
Hypothesis Hsp : t = BytesHuff -> sp = true.
Hypothesis Hord : shuffles order.
Hypothesis Hn : is_bits t -> n <= hi t.
Hypothesis HM : 512 * 512 * S L <= M.
Hypothesis HN : n * n <= M.
Local Notation bo := (optimizer_for t).
Local Notation wbo := (w_optimizer_for bd M t).
Local Notation sim := (sim M samples init).

Lemma sq_le k : k <= n -> k * k <= M.
Proof. intros H. pose proof (Nat.mul_le_mono k n k n H H). lia. Qed.

Lemma n_small : n + 1 < M.
Proof.
  assert (1 <= S L) by lia. assert (512 * 512 * 1 <= 512 * 512 * S L) by (apply Nat.mul_le_mono_l; lia).
  destruct (Nat.le_gt_cases n 2) as [Hs|Hs]; [lia|]. assert (3 * n <= n * n) by (apply Nat.mul_le_mono_r; lia). lia.
Qed.

Lemma sub_w a b r : checked_sub a b = Ret r -> usub bd M a b = Ret r.
Proof. apply usub_ref. Qed.

Lemma fresh_mod r a : visited t p sp (requested r) -> fresh_answer samples init r a -> moderate L a.
Proof. apply fresh_moderate. Qed.

Lemma opt_add_sim ts (Q : option tokenset -> Prop) : visited t p sp ts -> ntokens ts < n ->
  Q None -> (forall ts', added samples t p sp ts ts' -> Q (Some ts')) ->
  sim (opt_add_token bo ts) (w_opt_add_token bd M wbo ts) Q.
Proof.
  intros V Hlt HNo HSo. pose proof (full_base t n Hn ts Hlt) as Hb. pose proof n_small as Hns.
  unfold opt_add_token, w_opt_add_token. apply (sim_stats_pairs _ _ _ t p sp); [exact V|apply sq_le; lia|]. intros s Hf.
  destruct (fresh_answered samples init t p sp (WithPairs ts) s V Hf) as (A & P). cbn [requested] in A.
  pose proof (fresh_mod (WithPairs ts) s V Hf) as Hm.
  destruct (add_byte_ok samples t p sp Hsp ts s A Hb) as (r1 & E1 & H1). destruct (add_pair_ok samples t p sp ts s A (P ts eq_refl)) as (r2 & E2 & H2).
  eapply sim_done; [exact E1| |].
  { apply (add_byte_w bd M L HM t p sp); [exact Hsp|apply (an_sized A)|apply (an_visited A)| |exact Hm|rewrite (an_ntokens A); lia|exact E1].
    intros Hx. specialize (Hb Hx). unfold base_size in *. rewrite (an_ntokens A), (an_long A). exact Hb. }
  eapply sim_done; [exact E2|exact (bpe_w bd M L HM s r2 Hm E2)|].
  destruct r1 as [[t1 g1]|], r2 as [[t2 g2]|]; try apply sim_ret; auto.
  - destruct (Z.of_nat g2 <? g1)%Z; apply HSo; [eapply H1; reflexivity|eapply H2; reflexivity].
  - apply HSo. eapply H1; reflexivity.
  - apply HSo. eapply H2; reflexivity.
Qed.

Lemma trade_sim ts s (Q : option stats -> Prop) : visited t p sp ts -> ntokens ts = n ->
  answered samples t p sp ts s -> moderate L s -> Q None -> (forall a, improved samples t p sp n ts s a -> Q (Some a)) ->
  sim (trade_byte bo ts n s) (w_trade_byte bd M wbo ts n s) Q.
Proof.
  intros V En A Hms HNo HS. unfold trade_byte, w_trade_byte. eapply sim_done; [apply checked_sub_le, n_long_le|apply sub_w, checked_sub_le, n_long_le|].
  fold (base_size ts).
  rewrite (visited_min _ _ _ _ V). destruct (Nat.ltb_spec (lo t) (base_size ts)) as [Hlt|Hge]; [|apply sim_ret; exact HNo].
  eapply sim_done; [apply checked_sub_le; lia|apply sub_w, checked_sub_le; lia|].
  pose proof (base_range _ _ _ _ V) as R.
  destruct (bytes_optimizer_visited t p sp s (base_size ts - 1) Hsp (an_sized A) (an_visited A)) as (ts1 & E1 & V1 & B1 & L1); [lia|intros _; lia|].
  eapply sim_done; [exact E1|apply (optimizer_w bd M L HM t p sp); [apply (an_sized A)|apply (an_visited A)|exact Hms|exact E1]|].
  assert (Hpos : 1 <= n) by (rewrite <- En, (base_ntokens ts); lia).
  eapply sim_done; [apply checked_sub_le; exact Hpos|apply sub_w, checked_sub_le; exact Hpos|].
  assert (N1 : ntokens ts1 = n - 1).
  { rewrite (base_ntokens ts1), L1, B1, (an_long A). pose proof (base_ntokens ts). lia. }
  eapply sim_done; [rewrite (proj2 (Nat.eqb_eq _ _) N1); reflexivity|rewrite (proj2 (Nat.eqb_eq _ _) N1); reflexivity|].
  apply (sim_stats_pairs _ _ _ t p sp); [exact V1|apply sq_le; lia|]. intros s1 F1.
  destruct (fresh_answered samples init t p sp (WithPairs ts1) s1 V1 F1) as (A1 & P1). cbn [requested] in A1.
  destruct (add_pair_ok samples t p sp ts1 s1 A1 (P1 ts1 eq_refl)) as (r & Er & Hr).
  eapply sim_done; [exact Er|exact (bpe_w bd M L HM s1 r (fresh_mod (WithPairs ts1) s1 V1 F1) Er)|].
  destruct r as [[t2 g]|]; [|apply sim_ret; exact HNo].
  destruct (Hr t2 g eq_refl) as ((V2 & N2 & _) & _).
  apply (sim_stats _ _ _ t p sp); [exact V2|apply sq_le; lia|]. intros a F2.
  destruct (fresh_answered samples init t p sp (NoPairs t2) a V2 F2) as (A2 & _). cbn [requested] in A2.
  apply sim_ret. destruct (Nat.ltb_spec (total_tokens a) (total_tokens s)) as [Hl|Hg]; [|exact HNo].
  apply HS. split; [split; [apply (an_visited A2)|]|split; [split; [|exact En]|split; [apply (an_total' samples t p sp t2); exact A2|exact Hl]]]; rewrite (an_ntokens A2); lia.
Qed.

(** Removal counts *)
Definition rc_le (k : nat) (rc : smap nat) : Prop := forall x c, sget rc x = Some c -> c <= k.

Lemma replace_sim ts s k (Q : option stats * smap nat -> Prop) : visited t p sp ts -> ntokens ts = n ->
  answered samples t p sp ts s -> S k < M ->
  (forall rc, rc_le (S k) rc -> Q (None, rc)) -> (forall a rc, rc_le (S k) rc -> improved samples t p sp n ts s a -> Q (Some a, rc)) ->
  forall l rc, (forall x, In x l -> In (Str x) (tokens ts) /\ 1 < length x) -> NoDup l ->
  rc_le (S k) rc -> (forall x c, In x l -> sget rc x = Some c -> c <= k) ->
  sim (replace_loop bo ts n s l rc) (w_replace_loop bd M wbo ts n s l rc) Q.
Proof.
  intros V En A Hk HNo HS. induction l as [|x l IH]; intros rc Hl Nd Hrc Hrl; cbn [replace_loop w_replace_loop]; [apply sim_ret, HNo; exact Hrc|].
  destruct (Hl x (or_introl eq_refl)) as (Hx & Hlen). apply NoDup_cons_iff in Nd as (Hxl & Nd').
  set (c := match sget rc x with Some c => c | None => 0 end).
  assert (Hc : c <= k) by (unfold c; destruct (sget rc x) as [c'|] eqn:E; [apply (Hrl x c' (or_introl eq_refl) E)|lia]).
  rewrite uadd_small by lia. cbn [pbind]. set (rc' := sinsert rc x (c + 1)).
  assert (Hrc' : rc_le (S k) rc').
  { intros y d. unfold rc'. rewrite sget_sinsert. destruct (bstr_eqb y x); [intros E; injection E as <-; lia|apply Hrc]. }
  assert (Hrl' : forall y d, In y l -> sget rc' y = Some d -> d <= k).
  { intros y d Hy. unfold rc'. rewrite sget_sinsert. destruct (bstr_eqb_spec y x) as [->|_]; [contradiction|]. apply Hrl. right. exact Hy. }
  destruct (visited_remove t p sp ts x V Hx Hlen) as (i & ts1 & Ef & Er & V1 & N1 & L1).
  eapply sim_done; [rewrite Ef; reflexivity|rewrite Ef; reflexivity|]. eapply sim_done; [exact Er|exact Er|].
  assert (Hpos : 1 <= n) by lia.
  eapply sim_done; [apply checked_sub_le; exact Hpos|apply sub_w, checked_sub_le; exact Hpos|].
  assert (N1' : ntokens ts1 = n - 1) by lia.
  eapply sim_done; [rewrite (proj2 (Nat.eqb_eq _ _) N1'); reflexivity|rewrite (proj2 (Nat.eqb_eq _ _) N1'); reflexivity|].
  assert (Hrest : forall y, In y l -> In (Str y) (tokens ts) /\ 1 < length y) by (intros y Hy; apply Hl; right; exact Hy).
  apply sim_bind. apply opt_add_sim; [exact V1|lia| |].
  - apply IH; assumption.
  - intros ts2 (V2 & N2 & _). apply (sim_stats _ _ _ t p sp); [exact V2|apply sq_le; lia|]. intros a F2.
    destruct (fresh_answered samples init t p sp (NoPairs ts2) a V2 F2) as (A2 & _). cbn [requested] in A2.
    destruct (Nat.ltb_spec (total_tokens a) (total_tokens s)) as [Hlt|Hg]; [|apply IH; assumption].
    apply sim_ret, HS; [exact Hrc'|]. split; [split; [apply (an_visited A2)|]|split; [split; [|exact En]|split; [apply (an_total' samples t p sp ts2); exact A2|exact Hlt]]]; rewrite (an_ntokens A2); lia.
Qed.

Lemma rc_weak k rc : rc_le k rc -> rc_le (S k) rc.
Proof. intros H x c E. specialize (H x c E). lia. Qed.

Lemma to_remove_longs ts : flat_map (fun t => match t with
                                            | Str x => if 1 <? length x then [x] else []
                                            | Ext _ => []
                                            end) (tokens ts) = longs (str_tokens ts).
Proof.
  unfold longs, str_tokens. induction (tokens ts) as [|[x|d] l IH]; cbn [flat_map filter app]; [reflexivity| |exact IH]. rewrite IH. destruct (1 <? length x); reflexivity.
Qed.

Lemma NoDup_app_l {A} (a b : list A) : NoDup (a ++ b) -> NoDup a.
Proof. induction a as [|x a IH]; intros H; [constructor|]. inversion H; subst. constructor; [intros Hx; apply H2, in_app_iff; auto|auto]. Qed.

Lemma remove_add_sim ts rc k (Q : option stats * smap nat -> Prop) : fits t p sp n ts -> S k < M -> rc_le k rc ->
  (forall rc, rc_le (S k) rc -> Q (None, rc)) -> (forall a rc, rc_le (S k) rc -> stepped samples t p sp n ts a -> Q (Some a, rc)) ->
  sim (remove_add_token bo order ts n rc) (w_remove_add_token bd M wbo order ts n rc) Q.
Proof.
  intros (V & En) Hk Hrc HNo HS. unfold remove_add_token, w_remove_add_token. destruct (Nat.ltb_spec (ntokens ts) n) as [Hlt|Hge].
  - apply sim_bind. apply opt_add_sim; [exact V|exact Hlt|apply sim_ret, HNo, rc_weak, Hrc|].
    intros ts' Ha. destruct (added_fits samples t p sp n Hn ts ts' Hlt Ha) as ((V' & En') & B).
    apply (sim_stats _ _ _ t p sp); [exact V'|apply sq_le; exact En'|]. intros a F.
    destruct (fresh_answered samples init t p sp (NoPairs ts') a V' F) as (A & _). cbn [requested] in A.
    apply sim_ret, HS; [apply rc_weak, Hrc|]. split; [split; [apply (an_visited A)|rewrite (an_ntokens A); exact En']|].
    split; [intros Hc; apply (answered_calm samples t p sp n ts' a A), B, Hc|].
    intros N N' HN0 HN'. rewrite (an_ntokens A). apply B; [exact HN0|].
    eapply total_same; [apply same_dict_sym, (an_dict A)|exact HN'|apply (vi_usable _ _ _ _ V')].
  - assert (E : ntokens ts = n) by lia.
    eapply sim_done; [rewrite (proj2 (Nat.eqb_eq _ _) E); reflexivity|rewrite (proj2 (Nat.eqb_eq _ _) E); reflexivity|].
    apply (sim_stats _ _ _ t p sp); [exact V|apply sq_le; lia|]. intros s F.
    destruct (fresh_answered samples init t p sp (NoPairs ts) s V F) as (A & _). cbn [requested] in A.
    pose proof (fresh_mod (NoPairs ts) s V F) as Hm.
    apply sim_bind. apply trade_sim; auto.
    + cbn beta iota. rewrite to_remove_longs. apply replace_sim with (k := k); auto.
      * intros a rc' Hr H. apply HS; [exact Hr|]. eapply improved_stepped; eauto.
      * intros x Hx. apply (Permutation_in _ (Hord _ _)) in Hx. apply in_longs in Hx as (Hx & Hl). apply in_str_tokens in Hx. auto.
      * apply (Permutation_NoDup (Permutation_sym (Hord _ _))). unfold longs. apply NoDup_filter.
        destruct (vi_usable _ _ _ _ V) as (Nd & _). exact (NoDup_app_l _ _ Nd).
      * apply rc_weak, Hrc.
      * intros x c _. apply Hrc.
    + intros a H. apply sim_ret, HS; [apply rc_weak, Hrc|]. eapply improved_stepped; eauto.
Qed.

Lemma step_sim ts rc k (Q : option tokenset * smap nat -> Prop) : fits t p sp n ts -> S k < M -> rc_le k rc ->
  (forall rc, Q (None, rc)) -> (forall ts' rc, rc_le (S k) rc -> fits t p sp n ts' -> better samples t n ts ts' -> Q (Some ts', rc)) ->
  sim (optimization_step bo order ts n rc) (w_optimization_step bd M wbo order ts n rc) Q.
Proof.
  intros (V & En) Hk Hrc HNo HS. unfold optimization_step, w_optimization_step.
  apply (sim_stats _ _ _ t p sp); [exact V|apply sq_le; exact En|]. intros s F.
  destruct (fresh_answered samples init t p sp (NoPairs ts) s V F) as (A & _). cbn [requested] in A.
  pose proof (base_ntokens ts) as Eb. pose proof (base_range _ _ _ _ V) as R.
  eapply sim_done; [apply checked_sub_le; lia|apply sub_w, checked_sub_le; lia|].
  destruct (bytes_optimizer_visited t p sp s (n - n_long_tokens ts) Hsp (an_sized A) (an_visited A)) as (ts1 & E1 & V1 & B1 & L1); [lia|intros H; specialize (Hn H); lia|].
  eapply sim_done; [exact E1|apply (optimizer_w bd M L HM t p sp); [apply (an_sized A)|apply (an_visited A)|exact (fresh_mod (NoPairs ts) s V F)|exact E1]|].
  assert (N1 : ntokens ts <= ntokens ts1 <= n).
  { rewrite (base_ntokens ts1), L1, B1, (an_long A). lia. }
  apply (sim_stats _ _ _ t p sp); [exact V1|apply sq_le; lia|]. intros a F1.
  destruct (fresh_answered samples init t p sp (NoPairs ts1) a V1 F1) as (A1 & _). cbn [requested] in A1.
  destruct (Nat.ltb_spec (total_tokens a) (total_tokens s)) as [Hlt|Hge].
  - apply sim_ret, HS; [apply rc_weak, Hrc| |].
    + split; [apply (an_visited A1)|rewrite (an_ntokens A1); lia].
    + split.
      { intros _. apply (answered_calm samples t p sp n ts1 a A1). pose proof (base_ntokens ts1) as E2. rewrite L1, B1, (an_long A) in E2.
        destruct (is_huff_dec t) as [Eh|Eh]; [|apply not_huff_calm; exact Eh].
        destruct (Nat.le_gt_cases (n - n_long_tokens ts) (hi t)) as [Hc|Hc]; [right; lia|left; right].
        rewrite B1, (Nat.min_r _ _ (Nat.lt_le_incl _ _ Hc)), Eh. reflexivity. }
      intros N N' HN0 HN'. right. rewrite (an_ntokens A1). split; [lia|].
      rewrite (total_unique _ _ _ _ HN0 (an_total A)), (total_unique _ _ _ _ HN' (an_total' samples t p sp _ _ A1)). exact Hlt.
  - apply sim_bind. apply remove_add_sim with (k := k); auto; [split; assumption|intros rc' _; apply sim_ret, HNo|].
    intros a1 rc' Hrc' (F1' & B). eapply sim_done; [rewrite (proj2 (Nat.leb_le _ _)) by apply F1'; reflexivity|rewrite (proj2 (Nat.leb_le _ _)) by apply F1'; reflexivity|].
    apply sim_ret, HS; assumption.
Qed.

(** As many rounds are left as the measure of the set allows. *)
Lemma loop_sim B : B < M -> forall fuel k round ts rc N, fits t p sp n ts -> rc_le k rc -> total_for ts samples N ->
  (n - ntokens ts) * S (bound samples) + N < fuel -> k + ((n - ntokens ts) * S (bound samples) + N) < B ->
  sim (optimize_loop bo order clock fuel round ts n rc) (w_optimize_loop bd M wbo order clock fuel round ts n rc) (fits t p sp n).
Proof.
  intros HB. induction fuel as [|fuel IH]; intros k round ts rc N F Hrc HNt Hf Hk; [exfalso; apply (Nat.nlt_0_r _ Hf)|]. cbn [optimize_loop w_optimize_loop].
  assert (Hk' : S k < M) by (clear -HB Hk; generalize dependent ((n - ntokens ts) * S (bound samples) + N); intros m Hm; lia).
  apply sim_bind. apply step_sim with (k := k); [exact F|exact Hk'|exact Hrc|intros rc'; apply sim_ret; exact F|].
  intros ts' rc' Hrc' F' Bt.
  destruct (total_exists samples ts' (vi_usable _ _ _ _ (proj1 F'))) as (N' & HN').
  assert (Hm : (n - ntokens ts') * S (bound samples) + N' < (n - ntokens ts) * S (bound samples) + N).
  { pose proof (visited_total_bound _ _ _ _ _ _ (proj1 F') HN') as Hb. fold (bound samples) in Hb.
    destruct F as (_ & Hle). destruct F' as (_ & Hle').
    destruct (proj2 Bt N N' HNt HN') as [(H & _)|(H & H')].
    - replace (n - ntokens ts) with (S (n - ntokens ts - 1)) by lia.
      assert (Hx : (n - ntokens ts') * S (bound samples) <= (n - ntokens ts - 1) * S (bound samples)) by (apply Nat.mul_le_mono_r; lia).
      cbn [Nat.mul]. lia.
    - assert (Hx : (n - ntokens ts') * S (bound samples) <= (n - ntokens ts) * S (bound samples)) by (apply Nat.mul_le_mono_r; lia). lia. }
  assert (G : forall round', sim (optimize_loop bo order clock fuel round' ts' n rc') (w_optimize_loop bd M wbo order clock fuel round' ts' n rc') (fits t p sp n)).
  { intros round'. apply (IH (S k) round' ts' rc' N'); auto; lia. }
  destruct (clock round); [split; [reflexivity|apply G]|apply G].
Qed.

Lemma impl_sim ts fuel : fits t p sp n ts -> round_bound samples n <= fuel -> round_bound samples n < M ->
  sim (optimize_impl bo order clock fuel ts n) (w_optimize_impl bd M wbo order clock fuel ts n) (fun _ => True).
Proof.
  intros F Hf HB. unfold optimize_impl, w_optimize_impl. pose proof F as (V & Hle).
  apply (sim_stats _ _ _ t p sp); [exact V|apply sq_le; exact Hle|]. intros s0 _.
  destruct (total_exists samples ts (vi_usable _ _ _ _ V)) as (N & HNt).
  pose proof (visited_total_bound _ _ _ _ _ _ V HNt) as Hb. fold (bound samples) in Hb.
  change (round_bound samples n) with (S (n * S (bound samples) + bound samples)) in *.
  assert (Hx : (n - ntokens ts) * S (bound samples) <= n * S (bound samples)) by (apply Nat.mul_le_mono_r; lia).
  apply sim_bind. eapply sim_mono; [|apply (loop_sim (S (n * S (bound samples) + bound samples)) HB fuel 0 0 ts [] N); [exact F| |exact HNt|lia|lia]].
  - intros ts1 F1. cbn beta. destruct (ts_sort_total ts1 (visited_range _ _ _ _ (proj1 F1))) as (ts2 & Es).
    eapply sim_done; [exact Es|exact Es|].
    destruct (visited_sort _ _ _ _ _ (proj1 F1) Es) as (V2 & N2 & _).
    split; [reflexivity|]. split; [exists t, p, sp; exact V2|]. split; [apply sq_le; cbn [requested]; rewrite N2; apply F1|].
    intros a Fa. cbn. exists a. auto.
  - intros x c E. discriminate.
Qed.
End Search.

Lemma optimize_sim bd M samples init order clock n p t pre fuel : shuffles order -> supported t n -> good_start n p t pre ->
  512 * 512 * S (length (concat samples)) <= M -> n * n <= M -> round_bound samples n < M -> round_bound samples n <= fuel ->
  sim M samples init (optimize_tokenset order clock fuel n p t pre) (w_optimize_tokenset bd M order clock fuel n p t pre) (fun _ => True).
Proof.
  intros Hord Hsup Hpre HM HN HB Hf. destruct (supported_bounds _ _ Hsup) as (Hlo & Hhi). unfold optimize_tokenset, w_optimize_tokenset.
  destruct pre as [ts|].
  - destruct (good_start_flag _ _ _ _ Hpre) as (sp & V & Hsp & Hn).
    apply (impl_sim bd M samples init t p sp order clock n Hsp Hord Hhi HM HN ts fuel); [split; assumption|exact Hf|exact HB].
  - assert (G : forall ts, first_set p t = Some ts ->
      sim M samples init (optimize_impl (optimizer_for t) order clock fuel ts n) (w_optimize_impl bd M (w_optimizer_for bd M t) order clock fuel ts n) (fun _ => True)).
    { intros ts E. destruct (first_visited p t ts E) as (V & En & _).
      apply (impl_sim bd M samples init t p true order clock n (fun _ => eq_refl) Hord Hhi HM HN ts fuel); [split; [exact V|lia]|exact Hf|exact HB]. }
    destruct t; [apply G; reflexivity..|]. unfold initial_set, w_initial_set. clear G.
    destruct (visited_bytes p) as (V & B & L). revert V B L. generalize (new_bytes p). intros tb V B L.
    apply sim_bind. apply (sim_stats _ _ _ Bytes p true); [exact V| |].
    { assert (E : ntokens tb = 256) by (rewrite (base_ntokens tb), B, L; reflexivity). rewrite E.
      assert (512 * 512 * 1 <= 512 * 512 * S (length (concat samples))) by (apply Nat.mul_le_mono_l; lia). lia. }
    intros s Fs.
    destruct (fresh_answered samples init Bytes p true (NoPairs tb) s V Fs) as (A & _). cbn [requested] in A.
    pose proof (an_visited A) as V1.
    destruct (huff_bytes_visited p true s n eq_refl (visited_single _ _ _ _ V1) (vi_usable _ _ _ _ V1) (vi_proc _ _ _ _ V1) Hlo) as (ts & E & V2 & B2 & L2).
    exists ts. split; [exact E|]. split.
    { apply (huff_bytes_w bd M (length (concat samples)) HM); [apply (an_sized A)|apply (vi_usable _ _ _ _ V1)|exact (visited_single _ _ _ _ V1)| |exact E].
      exact (fresh_moderate samples init Bytes p true (NoPairs tb) s V Fs). }
    apply (impl_sim bd M samples init BytesHuff p true order clock n (fun _ => eq_refl) Hord Hhi HM HN ts fuel); [|exact Hf|exact HB].
    split; [exact V2|]. rewrite (base_ntokens ts), B2, L2, (an_long A), L. lia.
Qed.
