(** * Properties C54, C55: the budget is used up, and the result is stable. *)
From Coq Require Import ZArith.
From Verif Require Import Base BaseLemmas TokenSetModel TokenizerModel TokSpec SortLemmas TokenizerProof1 TokenizerProof2
  TokenizerTheory TokenSetProof TokenSetProof2 PropTokenizer PropTokenSet StatsAlgebra BatchModel PropBatch
  PropJson Shaped CacheModel PropCache OptBytesModel OptBytesProof OptBytesProof2
  OptBytesProof3 OptBytesProof4 PropOptBytes OptimizeModel OptimizeProof1 OptimizeProof2 OptimizeProof3 OptimizeProof4
  OptimizeProof5 OptimizeProof6 OptimizeProof7 OptimizeProof8 PropOptimize PropDeterminism.

(** ** Answers exist *)
Lemma answer_total samples init r : askable r -> exists a, answer samples init r = Ret a.
Proof.
  intros ((ss & S) & U). unfold answer. destruct (ts_sort_total _ (sh_range _ _ S)) as (ts' & E). rewrite E. cbn [bind].
  destruct (shaped_sort _ _ _ S E) as (ss' & S' & _).
  assert (U' : usable ts') by (eapply usable_perm; [apply (sv_strings _ _ (ts_sort_sorted _ _ E))|exact U]).
  destruct (proj2 (C01_tokenizer_exists_iff_usable ts') U') as (tk & Htk).
  rewrite (sync_eq ts' tk Htk (sh_range _ _ S')). cbn [bind]. eauto.
Qed.

Lemma ok_outcome {A} samples init (p : prog A) S (Q : A -> Prop) : ok samples init p S Q ->
  exists a, outcome_of samples init p = Ret a /\ Q a.
Proof.
  induction p as [o|r k IH|ts k IH]; cbn [ok outcome_of].
  - intros (a & -> & H). eauto.
  - intros (Ha & H). destruct (answer_total samples init r Ha) as (a & Ea). rewrite Ea. apply IH, H, fresh_answer_iff. exact Ea.
  - intros (_ & H). apply IH; exact H.
Qed.

Lemma out_done {A B} samples init (o : outcome A) (f : A -> prog B) :
  outcome_of samples init (pbind (PDone o) f) = bind o (fun a => outcome_of samples init (f a)).
Proof. rewrite outcome_bind. reflexivity. Qed.
Lemma out_stats {B} samples init ts (f : stats -> prog B) :
  outcome_of samples init (pbind (get_stats ts) f) = bind (answer samples init (NoPairs ts)) (fun a => outcome_of samples init (f a)).
Proof. rewrite outcome_bind. cbn. destruct (answer samples init (NoPairs ts)); reflexivity. Qed.
Lemma out_pairs {B} samples init ts (f : stats -> prog B) :
  outcome_of samples init (pbind (get_stats_with_pairs ts) f) = bind (answer samples init (WithPairs ts)) (fun a => outcome_of samples init (f a)).
Proof. rewrite outcome_bind. cbn. destruct (answer samples init (WithPairs ts)); reflexivity. Qed.

(** ** The last round *)
Section Last.
Variables (samples : list bstr) (init : option nat) (bo : bytes_optimizer).
Local Notation out := (outcome_of samples init).

Definition stuck order (ts : tokenset) (n : nat) : Prop :=
  exists rc rc', out (optimization_step bo order ts n rc) = Ret (None, rc').

Lemma loop_stuck order clock n : forall fuel round ts rc ts',
  out (optimize_loop bo order clock fuel round ts n rc) = Ret ts' -> stuck order ts' n.
Proof.
  induction fuel as [|fuel IH]; intros round ts rc ts' H; [discriminate|]. cbn [optimize_loop] in H. rewrite outcome_bind in H.
  destruct (out (optimization_step bo order ts n rc)) as [[[new|] rc']| |] eqn:E; cbn [bind] in H; try discriminate.
  - destruct (clock round); cbn [outcome_of] in H; eapply IH; exact H.
  - apply ret_inj in H. subst ts'. exists rc, rc'. exact E.
Qed.

(** ** Everything depends on the sorted set only *)
Lemma add_same a b : answer samples init (WithPairs a) = answer samples init (WithPairs b) ->
  out (opt_add_token bo a) = out (opt_add_token bo b).
Proof. intros E. unfold opt_add_token. rewrite !out_pairs, E. reflexivity. Qed.

Definition fails (ts : tokenset) (n : nat) (s : stats) (x : bstr) : Prop :=
  exists i new n1, find_token ts x = Some i /\ remove_token ts i = Ret new /\ checked_sub n 1 = Ret n1 /\ ntokens new = n1 /\
  (out (opt_add_token bo new) = Ret None \/
   exists newer a, out (opt_add_token bo new) = Ret (Some newer) /\ answer samples init (NoPairs newer) = Ret a /\ total_tokens s <= total_tokens a).

Lemma replace_none ts n s : forall l rc rc', out (replace_loop bo ts n s l rc) = Ret (None, rc') -> forall x, In x l -> fails ts n s x.
Proof.
  induction l as [|y l IH]; intros rc rc' H x Hx; [destruct Hx|]. cbn [replace_loop] in H. rewrite out_done in H.
  destruct (find_token ts y) as [i|] eqn:Ef; cbn [unwrap bind] in H; [|discriminate]. rewrite out_done in H.
  destruct (remove_token ts i) as [new| |] eqn:Er; cbn [bind] in H; try discriminate. rewrite out_done in H.
  destruct (checked_sub n 1) as [n1| |] eqn:En; cbn [bind] in H; try discriminate. rewrite out_done in H.
  destruct (ntokens new =? n1) eqn:Ea; cbn [assert_that bind] in H; [|discriminate]. rewrite outcome_bind in H.
  assert (G : out (replace_loop bo ts n s l (sinsert rc y (match sget rc y with Some k => k | None => 0 end + 1))) = Ret (None, rc') /\ fails ts n s y).
  { destruct (out (opt_add_token bo new)) as [[newer|]| |] eqn:Eo; cbn [bind] in H; try discriminate.
    - rewrite out_stats in H. destruct (answer samples init (NoPairs newer)) as [a| |] eqn:Es; cbn [bind] in H; try discriminate.
      destruct (Nat.ltb_spec (total_tokens a) (total_tokens s)) as [Hl|Hl]; [discriminate|]. split; [exact H|].
      exists i, new, n1. split; [exact Ef|]. split; [exact Er|]. split; [exact En|]. split; [apply Nat.eqb_eq; exact Ea|]. right. eauto.
    - split; [exact H|]. exists i, new, n1. split; [exact Ef|]. split; [exact Er|]. split; [exact En|]. split; [apply Nat.eqb_eq; exact Ea|]. left. exact Eo. }
  destruct G as (G1 & G2). destruct Hx as [<-|Hx]; [exact G2|eapply IH; eauto].
Qed.

Lemma none_replace ts n s : forall l rc, (forall x, In x l -> fails ts n s x) -> exists rc', out (replace_loop bo ts n s l rc) = Ret (None, rc').
Proof.
  induction l as [|y l IH]; intros rc H; cbn [replace_loop]; [exists rc; reflexivity|].
  destruct (H y (or_introl eq_refl)) as (i & new & n1 & Ef & Er & En & Ea & Ho).
  rewrite out_done, Ef. cbn [unwrap bind]. rewrite out_done, Er. cbn [bind]. rewrite out_done, En. cbn [bind]. rewrite out_done.
  rewrite (proj2 (Nat.eqb_eq _ _) Ea). cbn [assert_that bind]. rewrite outcome_bind.
  assert (Hr : forall x, In x l -> fails ts n s x) by (intros x Hx; apply H; right; exact Hx).
  destruct Ho as [Ho|(newer & a & Ho & Es & Hl)]; rewrite Ho; cbn [bind].
  - apply IH; exact Hr.
  - rewrite out_stats, Es. cbn [bind]. rewrite (proj2 (Nat.ltb_ge _ _)) by exact Hl. apply IH; exact Hr.
Qed.
End Last.

Lemma answer_same samples init a b : (exists ss, shaped a ss) -> usable a -> (exists ss, shaped b ss) -> same_content a b ->
  answer samples init (WithPairs a) = answer samples init (WithPairs b) /\ answer samples init (NoPairs a) = answer samples init (NoPairs b).
Proof.
  intros (ss & S) U (ss2 & S2) C. unfold answer. cbn [requested].
  destruct (ts_sort_total _ (sh_range _ _ S)) as (a' & Ea). destruct (ts_sort_total _ (sh_range _ _ S2)) as (b' & Eb).
  assert (E : a' = b').
  { eapply C21_sort_canonical; [| |exact C|exact Ea|exact Eb].
    - eapply shaped_NoDup; exact S.
    - destruct U as (U & _). unfold strings in U. apply NoDup_app_iff in U. apply U. }
  rewrite Ea, Eb, E. split; reflexivity.
Qed.

(** ** The step on the sorted set *)
Lemma remove_same t p sp a b x : visited t p sp a -> visited t p sp b -> same_content a b -> In (Str x) (tokens a) -> 1 < length x ->
  exists i j a' b', find_token a x = Some i /\ find_token b x = Some j /\ remove_token a i = Ret a' /\ remove_token b j = Ret b' /\
    visited t p sp a' /\ visited t p sp b' /\ ntokens a' = ntokens b' /\ same_content a' b'.
Proof.
  intros Va Vb (C1 & C2 & C3 & C4 & C5 & C6) Hx Hl.
  assert (Hy : In (Str x) (tokens b)) by (eapply Permutation_in; eassumption).
  destruct (visited_remove _ _ _ _ _ Va Hx Hl) as (i & a' & Fa & Ra & Va' & Na & _).
  destruct (visited_remove _ _ _ _ _ Vb Hy Hl) as (j & b' & Fb & Rb & Vb' & Nb & _).
  exists i, j, a', b'. split; [exact Fa|]. split; [exact Fb|]. split; [exact Ra|]. split; [exact Rb|]. split; [exact Va'|]. split; [exact Vb'|].
  assert (En : ntokens a = ntokens b) by (apply Permutation_length; exact C5). split; [lia|].
  pose proof (proj1 (proj1 (C20_find_token a x i)) Fa) as (Ha & _). pose proof (proj1 (proj1 (C20_find_token b x j)) Fb) as (Hb & _).
  destruct (remove_token_ok a i) as (a1 & ta & Ea & Ta & Pa & Da & A1 & A2 & A3 & A4);
    [apply nth_error_Some; congruence|eapply long_not_in_seq; [exact Va|exact Ha|exact Hl]|].
  destruct (remove_token_ok b j) as (b1 & tb & Eb & Tb & Pb & Db & B1 & B2 & B3 & B4);
    [apply nth_error_Some; congruence|eapply long_not_in_seq; [exact Vb|exact Hb|exact Hl]|].
  rewrite Ra in Ea. apply ret_inj in Ea. subst a1. rewrite Rb in Eb. apply ret_inj in Eb. subst b1.
  rewrite Ha in Ta. injection Ta as <-. rewrite Hb in Tb. injection Tb as <-.
  split; [congruence|]. split; [congruence|]. split; [congruence|]. split; [congruence|]. split.
  - apply (Permutation_cons_inv (a := Str x)). rewrite <- Pa, <- Pb. exact C5.
  - unfold denotes in Da, Db. rewrite Da, Db. exact C6.
Qed.

Lemma flat_long_in l x : In x (flat_map (fun t => match t with Str y => if 1 <? length y then [y] else [] | Ext _ => [] end) l) <->
  In (Str x) l /\ 1 < length x.
Proof.
  rewrite in_flat_map. split.
  - intros (tk & Ht & Hx). destruct tk as [y|]; [|destruct Hx]. destruct (Nat.ltb_spec 1 (length y)); [|destruct Hx].
    destruct Hx as [->|[]]. auto.
  - intros (H & Hl). exists (Str x). split; [exact H|]. rewrite (proj2 (Nat.ltb_lt _ _)) by exact Hl. left; reflexivity.
Qed.

Lemma stuck_same samples init t p sp order1 order2 a b n :
  shuffles order1 -> shuffles order2 -> visited t p sp a -> visited t p sp b -> same_content a b ->
  stuck samples init (optimizer_for t) order1 a n -> forall rc2, exists rc2', outcome_of samples init (optimization_step (optimizer_for t) order2 b n rc2) = Ret (None, rc2').
Proof.
  intros O1 O2 Va Vb C (rc & rc' & H) rc2. unfold optimization_step in *.
  destruct (answer_same samples init a b (vi_shaped _ _ _ _ Va) (vi_usable _ _ _ _ Va) (vi_shaped _ _ _ _ Vb) C) as (EP & EN).
  assert (En : ntokens a = ntokens b) by (apply Permutation_length; apply C).
  assert (El : n_long_tokens a = n_long_tokens b) by (apply n_long_perm; apply C).
  rewrite out_stats in *. rewrite <- EN. destruct (answer samples init (NoPairs a)) as [s| |] eqn:Es; cbn [bind] in *; try discriminate.
  rewrite out_done in *. rewrite <- El. destruct (checked_sub n (n_long_tokens a)) as [m| |]; cbn [bind] in *; try discriminate.
  rewrite out_done in *. destruct (optimizer_for t s m) as [new| |]; cbn [bind] in *; try discriminate.
  rewrite out_stats in *. destruct (answer samples init (NoPairs new)) as [ns| |]; cbn [bind] in *; try discriminate.
  destruct (total_tokens ns <? total_tokens s); [discriminate|].
  rewrite outcome_bind in *.
  assert (G : exists rc3, outcome_of samples init (remove_add_token (optimizer_for t) order1 a n rc) = Ret (None, rc3)).
  { destruct (outcome_of samples init (remove_add_token (optimizer_for t) order1 a n rc)) as [[[x|] rc3]| |]; cbn [bind] in H; try discriminate; [|eauto].
    rewrite out_done in H. destruct (ntokens (st_token_set x) <=? n); discriminate. }
  destruct G as (rc3 & G). clear H.
  assert (G2 : exists rc4, outcome_of samples init (remove_add_token (optimizer_for t) order2 b n rc2) = Ret (None, rc4)).
  2: { destruct G2 as (rc4 & G2). rewrite G2. cbn. eauto. }
  unfold remove_add_token in *. rewrite <- En. destruct (ntokens a <? n).
  - rewrite outcome_bind in *. rewrite <- (add_same samples init (optimizer_for t) a b EP).
    destruct (outcome_of samples init (opt_add_token (optimizer_for t) a)) as [[new'|]| |]; cbn [bind] in *; try discriminate; [|cbn; eauto].
    rewrite out_stats in G. destruct (answer samples init (NoPairs new')); discriminate.
  - rewrite out_done in *. destruct (ntokens a =? n); cbn [assert_that bind] in *; [|discriminate].
    rewrite out_stats in *. rewrite <- EN, Es in *. cbn [bind] in *.
    rewrite outcome_bind in *.
    assert (Et : trade_byte (optimizer_for t) b n s = trade_byte (optimizer_for t) a n s).
    { unfold trade_byte, min_bytes_ext_tokens. rewrite <- En, <- El. destruct C as (_ & -> & _). reflexivity. }
    rewrite Et. destruct (outcome_of samples init (trade_byte (optimizer_for t) a n s)) as [[x|]| |]; cbn [bind] in *; try discriminate.
    apply none_replace. intros x Hx.
    apply (Permutation_in _ (O2 _ _)) in Hx. apply flat_long_in in Hx as (Hx & Hl).
    assert (Hx' : In (Str x) (tokens a)) by (eapply Permutation_in; [symmetry; apply C|exact Hx]).
    assert (F : fails samples init (optimizer_for t) a n s x).
    { eapply replace_none; [exact G|]. apply (Permutation_in _ (Permutation_sym (O1 _ _))). apply flat_long_in. split; assumption. }
    destruct F as (i & new' & n1 & Fi & Fr & Fn & Fa & Fo).
    destruct (remove_same t p sp a b x Va Vb C Hx' Hl) as (i' & j & a' & b' & Ei & Ej & Ra & Rb & Va' & Vb' & Enn & C').
    rewrite Fi in Ei. injection Ei as <-. rewrite Fr in Ra. apply ret_inj in Ra. subst a'.
    exists j, b', n1. split; [exact Ej|]. split; [exact Rb|]. split; [exact Fn|]. split; [congruence|].
    destruct (answer_same samples init new' b' (vi_shaped _ _ _ _ Va') (vi_usable _ _ _ _ Va') (vi_shaped _ _ _ _ Vb') C') as (EP' & _).
    rewrite <- (add_same samples init (optimizer_for t) new' b' EP'). exact Fo.
Qed.

(** ** The parts of a finished search *)
Lemma impl_parts samples init order clock n p t sp ts0 fuel s : shuffles order -> supported t n -> (t = BytesHuff -> sp = true) ->
  fits t p sp n ts0 -> round_bound samples n <= fuel ->
  outcome_of samples init (optimize_impl (optimizer_for t) order clock fuel ts0 n) = Ret s ->
  exists ts1 ts2, fits t p sp n ts1 /\ stuck samples init (optimizer_for t) order ts1 n /\ ts_sort ts1 = Ret ts2 /\
    answer samples init (NoPairs ts2) = Ret s.
Proof.
  intros Ho Hs Hsp F Hf H. unfold optimize_impl in H. rewrite out_stats in H.
  destruct (answer samples init (NoPairs ts0)) as [s0| |]; cbn [bind] in H; try discriminate.
  rewrite outcome_bind in H. destruct (supported_bounds _ _ Hs) as (_ & Hhi).
  destruct (total_exists samples ts0 (vi_usable _ _ _ _ (proj1 F))) as (N & HN).
  pose proof (visited_total_bound _ _ _ _ _ _ (proj1 F) HN) as Hb. fold (bound samples) in Hb.
  assert (Hin : forall m l x, In x (order m l) -> In x l) by (intros m l x; apply Permutation_in, Ho).
  destruct (ok_outcome samples init _ _ _ (loop_ok samples init t p sp order clock n Hsp Hin Hhi ts0 fuel 0 ts0 [] N ltac:(apply reached_refl; assumption) HN
    ltac:(unfold round_bound in Hf; fold (bound samples) in Hf; assert (Hx : (n - ntokens ts0) * S (bound samples) <= n * S (bound samples)) by (apply Nat.mul_le_mono_r; lia); lia)))
    as (ts1 & E1 & (F1 & _)).
  rewrite E1 in H. cbn [bind] in H. rewrite out_done in H.
  destruct (ts_sort ts1) as [ts2| |] eqn:E2; cbn [bind] in H; try discriminate.
  exists ts1, ts2. split; [exact F1|]. split; [eapply loop_stuck; exact E1|]. split; [exact E2|]. cbn in H.
  destruct (answer samples init (NoPairs ts2)); cbn in H; try discriminate. exact H.
Qed.

Lemma run_parts samples init order clock n p t pre fuel s : shuffles order -> supported t n -> good_start n p t pre ->
  round_bound samples n <= fuel ->
  outcome_of samples init (optimize_tokenset order clock fuel n p t pre) = Ret s ->
  exists sp ts1 ts2, (t = BytesHuff -> sp = true) /\ fits t p sp n ts1 /\ stuck samples init (optimizer_for t) order ts1 n /\ ts_sort ts1 = Ret ts2 /\
    answer samples init (NoPairs ts2) = Ret s.
Proof.
  intros Ho Hs Hp Hf H. destruct (supported_bounds _ _ Hs) as (Hlo & _). unfold optimize_tokenset in H. rewrite outcome_bind in H.
  assert (G : exists sp ts0, (t = BytesHuff -> sp = true) /\ fits t p sp n ts0 /\ outcome_of samples init (initial_set n p t pre) = Ret ts0).
  { destruct pre as [ts|].
    - destruct (good_start_flag _ _ _ _ Hp) as (sp & V & Hsp & Hn). exists sp, ts. split; [exact Hsp|]. split; [split; assumption|reflexivity].
    - assert (G : forall ts, first_set p t = Some ts -> fits t p true n ts).
      { intros ts E. destruct (first_visited p t ts E) as (V & En & _). split; [exact V|lia]. }
      destruct t; try (eexists true, _; split; [reflexivity|]; split; [apply G; reflexivity|reflexivity]).
      destruct (visited_bytes p) as (V & _ & L). unfold initial_set. rewrite out_stats. revert V L. generalize (new_bytes p). intros tb V L.
      destruct (answer_total samples init (NoPairs tb) (visited_askable Bytes p true (NoPairs tb) V)) as (s0 & E0). rewrite E0. cbn [bind outcome_of].
      destruct (fresh_answered samples init Bytes p true (NoPairs tb) s0 V (proj2 (fresh_answer_iff _ _ _ _) E0)) as (A & _). cbn [requested] in A.
      pose proof (an_visited A) as V1.
      destruct (huff_bytes_visited p true s0 n eq_refl (visited_single _ _ _ _ V1) (vi_usable _ _ _ _ V1) (vi_proc _ _ _ _ V1) Hlo) as (ts & E & V2 & B2 & L2).
      exists true, ts. split; [reflexivity|]. split; [|exact E]. split; [exact V2|]. rewrite (base_ntokens ts), B2, L2, (an_long A), L. lia. }
  destruct G as (sp & ts0 & Hsp & F & E). rewrite E in H. cbn [bind] in H.
  destruct (impl_parts samples init order clock n p t sp ts0 fuel s Ho Hs Hsp F Hf H) as (ts1 & ts2 & H1).
  exists sp, ts1, ts2. split; [exact Hsp|exact H1].
Qed.

Lemma returned_outcome threads total samples init order clock n p t pre rounds m s :
  1 <= threads -> shuffles order -> supported t n -> good_start n p t pre -> round_bound samples n <= rounds ->
  optimizing threads total samples init order clock n p t pre rounds m -> returned m s ->
  outcome_of samples init (optimize_tokenset order clock rounds n p t pre) = Ret s /\
  m_saved m = saves_of samples init (optimize_tokenset order clock rounds n p t pre).
Proof.
  intros Ht Ho Hs Hp Hr M R.
  pose proof (optimize_okT samples init order clock n p t pre rounds Ho Hs Hp Hr) as K.
  destruct (okT_outcome _ threads total samples init _ _ Ht K m M) as (S1 & O1).
  unfold returned in R. rewrite R in S1, O1. cbn [outcome_of saves_of] in S1, O1. rewrite app_nil_r in S1. auto.
Qed.

Lemma sorted_same ts ts' : ts_sort ts = Ret ts' -> same_content ts ts'.
Proof.
  intros E. destruct (C21_sort_correct _ _ E) as ((H1 & H2 & H3 & H4 & H5 & H6) & _).
  repeat split; try congruence; symmetry; assumption.
Qed.

Lemma saves_bind {A B} samples init (m : prog A) (f : A -> prog B) :
  saves_of samples init (pbind m f) = saves_of samples init m ++ match outcome_of samples init m with Ret a => saves_of samples init (f a) | _ => [] end.
Proof.
  induction m as [o|r k IH|ts k IH]; cbn.
  - destruct o; reflexivity.
  - destruct (answer samples init r); [apply IH|reflexivity..].
  - f_equal. exact IH.
Qed.

Lemma ok_no_saves {A} samples init (p : prog A) Q : ok samples init p (fun _ => False) Q -> saves_of samples init p = [].
Proof.
  induction p as [o|r k IH|ts k IH]; cbn [ok saves_of].
  - reflexivity.
  - intros (Ha & H). destruct (answer_total samples init r Ha) as (a & Ea). rewrite Ea. apply IH, H, fresh_answer_iff. exact Ea.
  - intros ([] & _).
Qed.

(** ** C55: the result is a fixed point *)

(** Optimizing again from the returned set, with any number of threads, any
    order of the samples, any clock and any way of sorting, returns the same
    statistics and saves nothing. *)
Theorem C55_result_is_stable : forall threads1 threads2 total1 total2 samples1 samples2 init order1 order2 clock1 clock2 n p t pre rounds1 rounds2 m1 m2 s1,
  1 <= threads1 -> 1 <= threads2 -> Permutation samples1 samples2 -> shuffles order1 -> shuffles order2 -> supported t n -> good_start n p t pre ->
  round_bound samples1 n <= rounds1 -> round_bound samples2 n <= rounds2 ->
  optimizing threads1 total1 samples1 init order1 clock1 n p t pre rounds1 m1 -> returned m1 s1 ->
  optimizing threads2 total2 samples2 init order2 clock2 n p t (Some (st_token_set s1)) rounds2 m2 ->
  m_saved m2 = [] /\ (forall o, m_prog m2 = PDone o -> o = Ret s1).
Proof.
  intros threads1 threads2 total1 total2 l1 l2 init order1 order2 clock1 clock2 n p t pre r1 r2 m1 m2 s1 H1 H2 HP O1 O2 Hs Hp Hr1 Hr2 M1 R1 M2.
  destruct (returned_outcome _ _ _ _ _ _ _ _ _ _ _ _ _ H1 O1 Hs Hp Hr1 M1 R1) as (E1 & _).
  destruct (run_parts _ _ _ _ _ _ _ _ _ _ O1 Hs Hp Hr1 E1) as (sp & ts1 & ts2 & Hsp & F1 & St & Es & Ea).
  destruct (visited_sort _ _ _ _ _ (proj1 F1) Es) as (V2 & N2 & L2).
  assert (Et : st_token_set s1 = ts2).
  { destruct (proj2 (fresh_answer_iff _ _ _ _) Ea) as (ts3 & s3 & E3 & E4 & ->). cbn [requested] in E3.
    rewrite (C21_sort_idempotent _ _ Es) in E3. apply ret_inj in E3. subst ts3.
    destruct (sync_tallied ts2 l1 init s3 E4 (visited_range _ _ _ _ V2)) as (pss & T & _). apply (ta_set _ _ _ _ T). }
  rewrite Et in M2.
  assert (Hp2 : good_start n p t (Some ts2)) by (exists sp; split; [exact V2|rewrite N2; apply F1]).
  pose proof (optimize_okT l2 init order2 clock2 n p t (Some ts2) r2 O2 Hs Hp2 Hr2) as K.
  destruct (okT_outcome _ threads2 total2 l2 init _ _ H2 K m2 M2) as (S2 & Q2).
  destruct (okT_perm l2 l1 init _ _ _ (Permutation_sym HP) [] K) as (P1 & P2). rewrite P1 in Q2. rewrite P2 in S2. clear P1 P2 K.
  destruct (stuck_same l1 init t p sp order1 order2 ts1 ts2 n O1 O2 (proj1 F1) V2 (sorted_same _ _ Es) St []) as (rc' & Estep).
  assert (G : outcome_of l1 init (optimize_tokenset order2 clock2 r2 n p t (Some ts2)) = Ret s1 /\
              saves_of l1 init (optimize_tokenset order2 clock2 r2 n p t (Some ts2)) = []).
  { destruct r2 as [|r2]; [unfold round_bound in Hr2; lia|]. destruct (supported_bounds _ _ Hs) as (_ & Hhi).
    assert (Hin : forall m l x, In x (order2 m l) -> In x l) by (intros m l x; apply Permutation_in, O2).
    assert (Sv : saves_of l1 init (optimization_step (optimizer_for t) order2 ts2 n []) = []).
    { eapply (ok_no_saves _ _ _ (fun _ => True)). apply (step_ok l1 init t p sp order2 n Hsp Hin Hhi); try (intros; exact I).
      split; [exact V2|rewrite N2; apply F1]. }
    assert (El : outcome_of l1 init (optimize_loop (optimizer_for t) order2 clock2 (S r2) 0 ts2 n []) = Ret ts2 /\
                 saves_of l1 init (optimize_loop (optimizer_for t) order2 clock2 (S r2) 0 ts2 n []) = []).
    { cbn [optimize_loop]. rewrite outcome_bind, saves_bind, Estep, Sv. split; reflexivity. }
    destruct El as (El & Ell).
    unfold optimize_tokenset. rewrite outcome_bind, saves_bind. cbn [initial_set pret outcome_of saves_of bind app].
    unfold optimize_impl. rewrite out_stats, saves_bind. unfold get_stats at 2 3. cbn [outcome_of saves_of pret].
    rewrite Ea. cbn [bind app]. rewrite outcome_bind, saves_bind, El, Ell. cbn [bind app].
    rewrite out_done, saves_bind, (C21_sort_idempotent _ _ Es). cbn [bind app outcome_of saves_of get_stats pret]. rewrite Ea. split; reflexivity. }
  destruct G as (G1 & G2). rewrite G1 in Q2. rewrite G2 in S2. apply app_eq_nil in S2 as (S2 & _). split; [exact S2|].
  intros o E. rewrite E in Q2. cbn in Q2. exact Q2.
Qed.

(** ** C54: the budget is used up *)
Lemma stuck_add samples init bo order ts n : stuck samples init bo order ts n -> ntokens ts < n -> outcome_of samples init (opt_add_token bo ts) = Ret None.
Proof.
  intros (rc & rc' & H) Hl. unfold optimization_step in H. rewrite out_stats in H.
  destruct (answer samples init (NoPairs ts)) as [s| |]; cbn [bind] in H; try discriminate.
  rewrite out_done in H. destruct (checked_sub n (n_long_tokens ts)) as [m| |]; cbn [bind] in H; try discriminate.
  rewrite out_done in H. destruct (bo s m) as [new| |]; cbn [bind] in H; try discriminate.
  rewrite out_stats in H. destruct (answer samples init (NoPairs new)) as [ns| |]; cbn [bind] in H; try discriminate.
  destruct (total_tokens ns <? total_tokens s); [discriminate|]. rewrite outcome_bind in H. unfold remove_add_token in H.
  rewrite (proj2 (Nat.ltb_lt _ _)) in H by exact Hl. rewrite outcome_bind in H.
  destruct (outcome_of samples init (opt_add_token bo ts)) as [[new'|]| |]; cbn [bind] in H; try discriminate; [|reflexivity].
  rewrite out_stats in H. destruct (answer samples init (NoPairs new')) as [a| |]; cbn [bind outcome_of pret] in H; try discriminate.
  rewrite out_done in H. destruct (ntokens (st_token_set a) <=? n); discriminate.
Qed.

Lemma add_none samples init bo ts : outcome_of samples init (opt_add_token bo ts) = Ret None ->
  exists a, answer samples init (WithPairs ts) = Ret a /\ add_byte bo a = Ret None /\ add_token_bpe a = Ret None.
Proof.
  unfold opt_add_token. rewrite out_pairs. destruct (answer samples init (WithPairs ts)) as [a| |]; cbn [bind]; try discriminate.
  rewrite out_done. destruct (add_byte bo a) as [r1| |] eqn:E1; cbn [bind]; try discriminate.
  rewrite out_done. destruct (add_token_bpe a) as [r2| |] eqn:E2; cbn [bind outcome_of pret]; try discriminate.
  intros H. apply ret_inj in H. exists a. split; [reflexivity|].
  destruct r1 as [[t1 g1]|], r2 as [[t2 g2]|]; try discriminate; [destruct (Z.of_nat g2 <? g1)%Z; discriminate|]. split; assumption.
Qed.

(** The returned set has exactly [n] tokens; only bytes and byteshuff sets may be
    smaller, and then the data is encoded so that no two tokens follow each
    other: in a bytes set every sample is itself a token. *)
Theorem C54_budget_used_up : forall threads total (samples : list bstr) init order clock n p t pre rounds m s,
  1 <= threads -> ~ In [] samples -> shuffles order -> supported t n -> good_start n p t pre -> round_bound samples n <= rounds ->
  optimizing threads total samples init order clock n p t pre rounds m -> returned m s ->
  ntokens (st_token_set s) = n \/
  (t = Bytes \/ t = BytesHuff) /\ ntokens (st_token_set s) < n /\
  (exists encs, Forall2 (optimal (st_token_set s)) encs samples /\ forall l i j r, ~ In (l ++ PTok i :: PTok j :: r) encs) /\
  (t = Bytes -> forall x, In x samples -> In (Str x) (tokens (st_token_set s))) /\
  (t = BytesHuff -> ntokens (st_token_set s) = 258 + n_long_tokens (st_token_set s)).
Proof.
  intros threads total samples init order clock n p t pre rounds m s Ht Hne Ho Hs Hp Hr M R.
  destruct (returned_outcome _ _ _ _ _ _ _ _ _ _ _ _ _ Ht Ho Hs Hp Hr M R) as (E1 & _).
  destruct (run_parts _ _ _ _ _ _ _ _ _ _ Ho Hs Hp Hr E1) as (sp & ts1 & ts2 & Hsp & F1 & St & Es & Ea).
  destruct (visited_sort _ _ _ _ _ (proj1 F1) Es) as (V2 & N2 & L2).
  pose proof (sorted_same _ _ Es) as SC.
  destruct (answer_same samples init ts1 ts2 (vi_shaped _ _ _ _ (proj1 F1)) (vi_usable _ _ _ _ (proj1 F1)) (vi_shaped _ _ _ _ V2) SC) as (EP & EN).
  assert (Es2 : ts_sort ts2 = Ret ts2) by (eapply C21_sort_idempotent; exact Es).
  assert (Et : forall r a, requested r = ts2 -> answer samples init r = Ret a -> st_token_set a = ts2).
  { intros r a Er E. destruct (proj2 (fresh_answer_iff _ _ _ _) E) as (ts3 & s3 & E3 & E4 & ->). rewrite Er in E3.
    rewrite Es2 in E3. apply ret_inj in E3. subst ts3.
    destruct (sync_tallied ts2 samples init s3 E4 (visited_range _ _ _ _ V2)) as (pss & T & _). destruct r; apply (ta_set _ _ _ _ T). }
  rewrite (Et (NoPairs ts2) s eq_refl Ea).
  destruct (Nat.eq_dec (ntokens ts2) n) as [En|En]; [left; exact En|right].
  assert (Hlt : ntokens ts1 < n) by (destruct F1 as (_ & F1); lia).
  destruct (add_none _ _ _ _ (stuck_add _ _ _ _ _ _ St Hlt)) as (a & E2 & B & P). rewrite EP in E2.
  destruct (fresh_answered samples init t p sp (WithPairs ts2) a V2 (proj2 (fresh_answer_iff _ _ _ _) E2)) as (A & Hpt).
  destruct (Hpt ts2 eq_refl) as (pss & T & PT). cbn [requested] in A. pose proof (Et (WithPairs ts2) a eq_refl E2) as Ets. rewrite Ets in T, PT.
  destruct (supported_bounds _ _ Hs) as (_ & Hhi).
  assert (Hbase : base_size ts2 = hi t).
  { unfold add_byte in B. rewrite (count_tokens_ok _ a (vi_usable _ _ _ _ (an_visited A)) (an_sized A)) in B. cbn [bind] in B.
    rewrite checked_sub_le in B by apply n_long_le. cbn [bind] in B. rewrite Ets in B. fold (base_size ts2) in B.
    pose proof (base_range _ _ _ _ V2) as Rg. pose proof (base_ntokens ts2) as Bn.
    destruct (bytes_optimizer_visited t p sp a (base_size ts2 + 1) Hsp (an_sized A) (an_visited A)) as (ts3 & E3 & V3 & B3 & L3); [lia| |].
    - intros Hb. specialize (Hhi Hb). lia.
    - rewrite E3 in B. cbn [bind] in B. destruct (Nat.eqb_spec (ntokens ts3) (ntokens ts2)) as [Eq|Nq].
      + rewrite (base_ntokens ts3), B3, L3, Ets in Eq. lia.
      + rewrite (count_tokens_ok _ a (vi_usable _ _ _ _ V3) (an_sized A)) in B. discriminate. }
  assert (Hnb : t = Bytes \/ t = BytesHuff).
  { pose proof (base_ntokens ts2) as Bn. destruct t; auto; exfalso; cbn in Hbase, Hhi; unfold is_bits in Hhi; specialize (Hhi ltac:(auto)); lia. }
  assert (Hadj : forall l i j r, ~ In (l ++ PTok i :: PTok j :: r) pss).
  { intros l i j r Hi. destruct (add_token_bpe_ok _ _ _ _ T PT (vi_usable _ _ _ _ V2)) as [(_ & Hc)|(x & c & E & _)]; [|rewrite P in E; discriminate].
    apply In_nth_error in Hi as (k & Hk). destruct (Forall2_nth _ _ _ (ta_opt _ _ _ _ T) _ _ Hk) as (text & Htx & Hopt).
    destruct (pair_new _ _ _ _ _ _ Hopt) as (s1 & s2 & G1 & G2 & _).
    apply (Hc (s1 ++ s2) (sum (map (adj i j) pss))). exists i, j, s1, s2. split; [exact G1|]. split; [exact G2|]. split; [reflexivity|]. split; [reflexivity|].
    assert (H0 : 0 < adj i j (l ++ PTok i :: PTok j :: r)).
    { clear. induction l as [|x l IH]; cbn [app adj]; [rewrite !Nat.eqb_refl; cbn; lia|lia]. }
    apply nth_error_In in Hk. pose proof (sum_ge (adj i j) pss _ Hk). lia. }
  split; [exact Hnb|]. split; [lia|]. split; [exists pss; split; [apply (ta_opt _ _ _ _ T)|exact Hadj]|]. split.
  - intros -> x Hx. pose proof Hx as Hx0. apply In_nth_error in Hx as (k & Hk).
    destruct (Forall2_nth_r _ _ _ (ta_opt _ _ _ _ T) _ _ Hk) as (ps & Hps & (Hseg & _)).
    assert (Hq : sequences ts2 = []).
    { destruct (sequences ts2) as [|q l] eqn:Eq; [reflexivity|]. exfalso.
      destruct (vi_seqs _ _ _ _ V2 (denotes ts2 q)) as (_ & []). rewrite Eq. left; reflexivity. }
    apply nth_error_In in Hps. clear -Hseg Hq Hps Hadj Hx0 Hne.
    assert (Hp : forall p x, piece_string ts2 p = Some x -> exists i, p = PTok i /\ nth_error (tokens ts2) i = Some (Str x)).
    { intros [i|i] y Hy; cbn in Hy.
      - exists i. split; [reflexivity|]. destruct (nth_error (tokens ts2) i) as [[z|]|]; congruence.
      - rewrite Hq in Hy. destruct i; discriminate. }
    destruct Hseg as [|p ps y r Hy Hseg]; [contradiction|]. destruct (Hp _ _ Hy) as (i & -> & Hi).
    destruct Hseg as [|p' ps y' r Hy' Hseg].
    + rewrite app_nil_r. eapply nth_error_In; exact Hi.
    + destruct (Hp _ _ Hy') as (j & -> & _). exfalso. exact (Hadj [] i j ps Hps).
  - intros ->. cbn in Hbase. rewrite (base_ntokens ts2), Hbase. reflexivity.
Qed.

(** Executions and repetitions exist, also with more tokens than the data can use. *)
Example C54_C55_hypotheses_met : exists m1 s1 m2 s2,
  optimizing 4 3 [[x61; x62]; [x61]] None (fun _ l => rev l) (fun _ => true) 300 Raw Bytes None (round_bound [[x61; x62]; [x61]] 300) m1 /\ returned m1 s1 /\
  optimizing 2 3 [[x61]; [x61; x62]] None (fun _ l => l) (fun _ => true) 300 Raw Bytes (Some (st_token_set s1)) (round_bound [[x61]; [x61; x62]] 300) m2 /\ returned m2 s2 /\
  s2 = s1.
Proof.
  assert (Hr : shuffles (fun _ l => rev l)) by (intros m l; symmetry; apply Permutation_rev).
  assert (Hs : shuffles (fun _ l => l)) by (intros m l; reflexivity).
  assert (Hn1 : ~ In [] [[x61; x62]; [x61]]) by (cbn; intuition discriminate).
  assert (Hn2 : ~ In [] [[x61]; [x61; x62]]) by (cbn; intuition discriminate).
  assert (G : supported Bytes 300) by (split; [apply Nat.leb_le; reflexivity|exact I]).
  destruct (proj1 (C43_optimization_never_panics_partial 4 3 [[x61; x62]; [x61]] None (fun _ l => rev l) (fun _ => true) 300 Raw Bytes None _ ltac:(lia) Hn1 Hr G I (le_n _))) as (m1 & s1 & A1 & B1).
  assert (P1 : good_start 300 Raw Bytes (Some (st_token_set s1))).
  { apply (C44_result_within_budget 4 3 _ None _ _ 300 Raw Bytes None _ m1 ltac:(lia) Hn1 Hr G I (le_n _) A1). exact B1. }
  destruct (proj1 (C43_optimization_never_panics_partial 2 3 [[x61]; [x61; x62]] None (fun _ l => l) (fun _ => true) 300 Raw Bytes _ _ ltac:(lia) Hn2 Hs G P1 (le_n _))) as (m2 & s2 & A2 & B2).
  exists m1, s1, m2, s2. split; [exact A1|]. split; [exact B1|]. split; [exact A2|]. split; [exact B2|].
  destruct (C55_result_is_stable 4 2 _ _ _ _ _ _ _ _ _ 300 Raw Bytes None _ _ m1 m2 s1 ltac:(lia) ltac:(lia) (perm_swap _ _ _) Hr Hs G I (le_n _) (le_n _) A1 B1 A2) as (_ & H).
  apply ret_inj. apply H. exact B2.
Qed.

(** Every search has an initial set. *)
Lemma initial_exists samples init n p t pre : supported t n -> exists ts0, initial samples init n p t pre ts0.
Proof.
  intros Hsup. destruct pre as [ts|]; [exists ts; reflexivity|]. destruct (is_huff_dec t) as [->|Eh].
  - destruct (answer_total samples init (NoPairs (new_bytes p))) as (s0 & E0); [apply (visited_askable Bytes p true), visited_bytes|].
    apply fresh_answer_iff in E0. destruct (visited_bytes p) as (V & _ & L).
    cbn [initial]. revert E0 V. generalize (new_bytes p). intros tb E0 V.
    destruct (fresh_answered samples _ Bytes p true (NoPairs tb) s0 V E0) as (A & _). cbn [requested] in A. pose proof (an_visited A) as V1.
    destruct (huff_bytes_visited p true s0 n eq_refl (visited_single _ _ _ _ V1) (vi_usable _ _ _ _ V1) (vi_proc _ _ _ _ V1) (proj1 Hsup)) as (ts & E & _). eauto.
  - destruct t; [eexists; reflexivity..|congruence].
Qed.

(** A byteshuff set that uses up its budget: the hypotheses of [C45_never_longer]. *)
Example C45_full_budget_met : exists ts0, good_start 100 Raw BytesHuff (Some ts0) /\ no_room 100 ts0 /\ supported BytesHuff 100 /\
  exists m s, optimizing 2 3 [[x61; x62]; [x61]] None (fun _ l => rev l) (fun _ => true) 100 Raw BytesHuff (Some ts0) (round_bound [[x61; x62]; [x61]] 100) m /\ returned m s.
Proof.
  assert (Sup : supported BytesHuff 100) by (unfold supported; cbn; lia).
  assert (G : exists ts0, good_start 100 Raw BytesHuff (Some ts0) /\ ntokens ts0 = 100).
  { destruct (visited_bytes Raw) as (V & _ & L). revert V L. generalize (new_bytes Raw). intros tb V L.
    destruct (answer_total [[x61; x62]; [x61]] None (NoPairs tb) (visited_askable Bytes Raw true (NoPairs tb) V)) as (s & E).
    destruct (fresh_answered _ None Bytes Raw true (NoPairs tb) s V (proj2 (fresh_answer_iff _ _ _ _) E)) as (A & _). cbn [requested] in A.
    pose proof (an_visited A) as V1.
    destruct (huff_bytes_visited Raw true s 100 eq_refl (visited_single _ _ _ _ V1) (vi_usable _ _ _ _ V1) (vi_proc _ _ _ _ V1)) as (ts & _ & V2 & B2 & L2); [lia|].
    assert (Nt : ntokens ts = 100) by (rewrite (base_ntokens ts), B2, L2, (an_long A), L; reflexivity).
    exists ts. split; [exists true; split; [exact V2|lia]|exact Nt]. }
  destruct G as (ts0 & G & Nt). exists ts0. split; [exact G|]. split; [left; exact Nt|]. split; [exact Sup|].
  assert (Hr : shuffles (fun _ l => rev l)) by (intros m l; symmetry; apply Permutation_rev).
  assert (Hn1 : ~ In [] [[x61; x62]; [x61]]) by (cbn; intuition discriminate).
  refine (proj1 (C43_optimization_never_panics_partial 2 3 [[x61; x62]; [x61]] None (fun _ l => rev l) (fun _ => true) 100 Raw BytesHuff (Some ts0) _ _ Hn1 Hr Sup G (le_n _))). lia.
Qed.
