(** * Property C103: the order of the tokens in the starting set does not matter. *)
From Coq Require Import ZArith.
From Verif Require Import Base BaseLemmas TokenSetModel TokenizerModel TokSpec SortLemmas TokenizerProof1 TokenizerProof2
  TokenizerTheory TokenSetProof TokenSetProof2 PropTokenizer PropTokenSet StatsAlgebra BatchModel PropBatch
  PropJson Shaped CacheModel PropCache OptBytesModel OptBytesProof OptBytesProof2
  OptBytesProof3 OptBytesProof4 PropOptBytes OptimizeModel OptimizeProof1 OptimizeProof2 OptimizeProof3 OptimizeProof4
  OptimizeProof5 OptimizeProof6 OptimizeProof7 OptimizeProof8 PropOptimize PropDeterminism PropFixpoint.

(** The long strings of a set, in its order (src/optimize.rs:214-221). *)
Definition longs_of (ts : tokenset) : list bstr :=
  flat_map (fun t => match t with Str x => if 1 <? length x then [x] else [] | Ext _ => [] end) (tokens ts).

(** ** Nothing is saved inside a round *)
Lemma sil_bind {A B} samples init (m : prog A) (f : A -> prog B) :
  saves_of samples init m = [] -> (forall a, saves_of samples init (f a) = []) -> saves_of samples init (pbind m f) = [].
Proof. intros H1 H2. rewrite saves_bind, H1. destruct (outcome_of samples init m); [apply H2|reflexivity..]. Qed.

Section Silent.
Variables (samples : list bstr) (init : option nat) (bo : bytes_optimizer).
Local Notation sv := (saves_of samples init).

Lemma sil_done {A B} (o : outcome A) (f : A -> prog B) : (forall a, sv (f a) = []) -> sv (pbind (PDone o) f) = [].
Proof. intros H. apply sil_bind; [reflexivity|exact H]. Qed.
Lemma sil_stats {B} ts (f : stats -> prog B) : (forall a, sv (f a) = []) -> sv (pbind (get_stats ts) f) = [].
Proof. intros H. apply sil_bind; [|exact H]. cbn. destruct (answer samples init (NoPairs ts)); reflexivity. Qed.
Lemma sil_pairs {B} ts (f : stats -> prog B) : (forall a, sv (f a) = []) -> sv (pbind (get_stats_with_pairs ts) f) = [].
Proof. intros H. apply sil_bind; [|exact H]. cbn. destruct (answer samples init (WithPairs ts)); reflexivity. Qed.

Lemma sil_add ts : sv (opt_add_token bo ts) = [].
Proof. unfold opt_add_token. apply sil_pairs; intros s. apply sil_done; intros x. apply sil_done; intros y. reflexivity. Qed.

Lemma sil_trade ts n s : sv (trade_byte bo ts n s) = [].
Proof.
  unfold trade_byte. apply sil_done; intros m. destruct (min_bytes_ext_tokens ts <? m); [|reflexivity].
  apply sil_done; intros m1. apply sil_done; intros new. apply sil_done; intros n1. apply sil_done; intros u.
  apply sil_pairs; intros s1. apply sil_done; intros [[t c]|]; [|reflexivity]. apply sil_stats; intros s2. reflexivity.
Qed.

Lemma sil_replace ts n s : forall l rc, sv (replace_loop bo ts n s l rc) = [].
Proof.
  induction l as [|x l IH]; intros rc; [reflexivity|]. cbn [replace_loop].
  apply sil_done; intros i. apply sil_done; intros new. apply sil_done; intros n1. apply sil_done; intros u.
  apply sil_bind; [apply sil_add|]. intros [newer|]; [|apply IH]. apply sil_stats; intros a.
  destruct (total_tokens a <? total_tokens s); [reflexivity|apply IH].
Qed.

Lemma sil_step order ts n rc : sv (optimization_step bo order ts n rc) = [].
Proof.
  unfold optimization_step. apply sil_stats; intros s. apply sil_done; intros m. apply sil_done; intros new. apply sil_stats; intros ns.
  destruct (total_tokens ns <? total_tokens s); [reflexivity|].
  apply sil_bind.
  - unfold remove_add_token. destruct (ntokens ts <? n).
    + apply sil_bind; [apply sil_add|]. intros [x|]; [|reflexivity]. apply sil_stats; intros a. reflexivity.
    + apply sil_done; intros u. apply sil_stats; intros a. apply sil_bind; [apply sil_trade|]. intros [x|]; [reflexivity|]. apply sil_replace.
  - intros [[x|] rc']; [|reflexivity]. apply sil_done; intros u. reflexivity.
Qed.
End Silent.

(** ** Removal counts, once there, stay *)
Lemma sinsert_some {V} (m : smap V) k v : sinsert m k v <> [].
Proof. destruct m as [|[k0 v0] m]; cbn; [discriminate|]. destruct (bstr_cmp k k0); discriminate. Qed.

Section Counts.
Variables (samples : list bstr) (init : option nat) (bo : bytes_optimizer).
Local Notation out := (outcome_of samples init).

Lemma replace_counts ts n s : forall l rc o rc', out (replace_loop bo ts n s l rc) = Ret (o, rc') -> l <> [] \/ rc <> [] -> rc' <> [].
Proof.
  induction l as [|x l IH]; intros rc o rc' H Hn; cbn [replace_loop] in H.
  - cbn in H. apply ret_inj in H. injection H as _ <-. destruct Hn as [Hn|Hn]; congruence.
  - pose proof (sinsert_some rc x (match sget rc x with Some k => k | None => 0 end + 1)) as Hi.
    rewrite out_done in H. destruct (unwrap (find_token ts x)) as [i| |]; cbn [bind] in H; try discriminate.
    rewrite out_done in H. destruct (remove_token ts i) as [new| |]; cbn [bind] in H; try discriminate.
    rewrite out_done in H. destruct (checked_sub n 1) as [n1| |]; cbn [bind] in H; try discriminate.
    rewrite out_done in H. destruct (assert_that (ntokens new =? n1)) as [u| |]; cbn [bind] in H; try discriminate.
    rewrite outcome_bind in H. destruct (out (opt_add_token bo new)) as [[newer|]| |]; cbn [bind] in H; try discriminate.
    + rewrite out_stats in H. destruct (answer samples init (NoPairs newer)) as [a| |]; cbn [bind] in H; try discriminate.
      destruct (total_tokens a <? total_tokens s).
      * cbn in H. apply ret_inj in H. injection H as _ <-. exact Hi.
      * eapply IH; [exact H|right; exact Hi].
    + eapply IH; [exact H|right; exact Hi].
Qed.

Lemma step_counts order ts n rc o rc' : out (optimization_step bo order ts n rc) = Ret (o, rc') -> rc <> [] -> rc' <> [].
Proof.
  intros H Hn. unfold optimization_step in H.
  rewrite out_stats in H. destruct (answer samples init (NoPairs ts)) as [s| |]; cbn [bind] in H; try discriminate.
  rewrite out_done in H. destruct (checked_sub n (n_long_tokens ts)) as [m| |]; cbn [bind] in H; try discriminate.
  rewrite out_done in H. destruct (bo s m) as [new| |]; cbn [bind] in H; try discriminate.
  rewrite out_stats in H. destruct (answer samples init (NoPairs new)) as [ns| |]; cbn [bind] in H; try discriminate.
  destruct (total_tokens ns <? total_tokens s); [cbn in H; apply ret_inj in H; injection H as _ <-; exact Hn|].
  rewrite outcome_bind in H.
  destruct (out (remove_add_token bo order ts n rc)) as [[x rc3]| |] eqn:E; cbn [bind] in H; try discriminate.
  assert (G : rc3 <> []).
  { unfold remove_add_token in E. destruct (ntokens ts <? n).
    - rewrite outcome_bind in E. destruct (out (opt_add_token bo ts)) as [[y|]| |]; cbn [bind] in E; try discriminate.
      + rewrite out_stats in E. destruct (answer samples init (NoPairs y)); cbn [bind] in E; try discriminate. cbn in E.
        apply ret_inj in E. injection E as _ <-. exact Hn.
      + cbn in E. apply ret_inj in E. injection E as _ <-. exact Hn.
    - rewrite out_done in E. destruct (assert_that (ntokens ts =? n)) as [u| |]; cbn [bind] in E; try discriminate.
      rewrite out_stats in E. destruct (answer samples init (NoPairs ts)) as [s1| |]; cbn [bind] in E; try discriminate.
      rewrite outcome_bind in E. destruct (out (trade_byte bo ts n s1)) as [[y|]| |]; cbn [bind] in E; try discriminate.
      + cbn in E. apply ret_inj in E. injection E as _ <-. exact Hn.
      + eapply replace_counts; [exact E|right; exact Hn]. }
  destruct x as [x|].
  - rewrite out_done in H. destruct (assert_that (ntokens (st_token_set x) <=? n)) as [u| |]; cbn [bind] in H; try discriminate.
    cbn in H. apply ret_inj in H. injection H as _ <-. exact G.
  - cbn in H. apply ret_inj in H. injection H as _ <-. exact G.
Qed.

(** A round with the same order for the long strings. *)
Lemma step_order order1 order2 ts n rc : (forall l, order1 rc l = order2 rc l) ->
  out (optimization_step bo order1 ts n rc) = out (optimization_step bo order2 ts n rc).
Proof.
  intros Ho. assert (E : remove_add_token bo order1 ts n rc = remove_add_token bo order2 ts n rc).
  { unfold remove_add_token. rewrite Ho. reflexivity. }
  unfold optimization_step. rewrite E. reflexivity.
Qed.

Lemma loop_order order1 order2 clock : (forall rc l, rc <> [] -> order1 rc l = order2 rc l) ->
  forall fuel round ts n rc, rc <> [] ->
  out (optimize_loop bo order1 clock fuel round ts n rc) = out (optimize_loop bo order2 clock fuel round ts n rc) /\
  saves_of samples init (optimize_loop bo order1 clock fuel round ts n rc) = saves_of samples init (optimize_loop bo order2 clock fuel round ts n rc).
Proof.
  intros Ho. induction fuel as [|fuel IH]; intros round ts n rc Hn; [split; reflexivity|]. cbn [optimize_loop].
  rewrite !outcome_bind, !saves_bind, !sil_step.
  rewrite <- (step_order order1 order2 ts n rc (fun l => Ho rc l Hn)).
  destruct (out (optimization_step bo order1 ts n rc)) as [[[new|] rc']| |] eqn:E; cbn [bind app]; try (split; reflexivity).
  pose proof (step_counts _ _ _ _ _ _ E Hn) as Hn'. destruct (IH (S round) new n rc' Hn') as (I1 & I2).
  destruct (clock round); cbn [outcome_of saves_of]; rewrite I1, I2; split; reflexivity.
Qed.
End Counts.

(** ** Sets with the same tokens in another order *)
Section Same.
Variables (samples : list bstr) (init : option nat) (t : token_type) (p : processing) (sp : bool).
Local Notation out := (outcome_of samples init).
Local Notation bo := (optimizer_for t).

Lemma replace_same a b n s : visited t p sp a -> visited t p sp b -> same_content a b ->
  forall l rc, (forall x, In x l -> In (Str x) (tokens a) /\ 1 < length x) ->
  out (replace_loop bo a n s l rc) = out (replace_loop bo b n s l rc).
Proof.
  intros Va Vb C. induction l as [|x l IH]; intros rc Hl; [reflexivity|]. cbn [replace_loop].
  assert (IH' : forall rc, out (replace_loop bo a n s l rc) = out (replace_loop bo b n s l rc)).
  { intros rc0. apply IH. intros y Hy. apply Hl. right; exact Hy. }
  destruct (Hl x (or_introl eq_refl)) as (Hx & Hlx).
  destruct (remove_same t p sp a b x Va Vb C Hx Hlx) as (i & j & a' & b' & Ei & Ej & Ra & Rb & Va' & Vb' & Enn & C').
  rewrite !out_done, Ei, Ej. cbn [unwrap bind]. rewrite !out_done, Ra, Rb. cbn [bind].
  rewrite !out_done. destruct (checked_sub n 1) as [n1| |]; cbn [bind]; try reflexivity.
  rewrite !out_done, Enn. destruct (assert_that (ntokens b' =? n1)) as [u| |]; cbn [bind]; try reflexivity.
  rewrite !outcome_bind.
  destruct (answer_same samples init a' b' (vi_shaped _ _ _ _ Va') (vi_usable _ _ _ _ Va') (vi_shaped _ _ _ _ Vb') C') as (EP & _).
  rewrite <- (add_same samples init bo a' b' EP).
  destruct (out (opt_add_token bo a')) as [[newer|]| |]; cbn [bind]; try reflexivity; [|apply IH'].
  rewrite !out_stats. destruct (answer samples init (NoPairs newer)) as [c| |]; cbn [bind]; try reflexivity.
  destruct (total_tokens c <? total_tokens s); [reflexivity|apply IH'].
Qed.

Lemma longs_perm a b : same_content a b -> Permutation (longs_of a) (longs_of b).
Proof. intros C. unfold longs_of. apply Permutation_flat_map. apply C. Qed.

Lemma step_same order1 order2 a b n x rc' : shuffles order1 -> shuffles order2 -> visited t p sp a -> visited t p sp b -> same_content a b ->
  out (optimization_step bo order1 a n []) = Ret (x, rc') -> rc' = [] \/ order1 [] (longs_of a) = order2 [] (longs_of b) ->
  out (optimization_step bo order2 b n []) = Ret (x, rc').
Proof.
  intros O1 O2 Va Vb C H Ho. unfold optimization_step in *.
  destruct (answer_same samples init a b (vi_shaped _ _ _ _ Va) (vi_usable _ _ _ _ Va) (vi_shaped _ _ _ _ Vb) C) as (EP & EN).
  assert (En : ntokens a = ntokens b) by (apply Permutation_length; apply C).
  assert (El : n_long_tokens a = n_long_tokens b) by (apply n_long_perm; apply C).
  rewrite out_stats in *. rewrite <- EN. destruct (answer samples init (NoPairs a)) as [s| |] eqn:Es; cbn [bind] in *; try discriminate.
  rewrite out_done in *. rewrite <- El. destruct (checked_sub n (n_long_tokens a)) as [m| |]; cbn [bind] in *; try discriminate.
  rewrite out_done in *. destruct (bo s m) as [new| |]; cbn [bind] in *; try discriminate.
  rewrite out_stats in *. destruct (answer samples init (NoPairs new)) as [ns| |]; cbn [bind] in *; try discriminate.
  destruct (total_tokens ns <? total_tokens s); [exact H|].
  rewrite outcome_bind in *.
  destruct (out (remove_add_token bo order1 a n [])) as [[y rc3]| |] eqn:G; cbn [bind] in H; try discriminate.
  assert (Erc : rc3 = rc').
  { destruct y as [y|]; [|cbn in H; apply ret_inj in H; congruence]. rewrite out_done in H.
    destruct (assert_that (ntokens (st_token_set y) <=? n)); cbn [bind] in H; try discriminate. cbn in H. apply ret_inj in H. congruence. }
  subst rc3.
  assert (G2 : out (remove_add_token bo order2 b n []) = Ret (y, rc')).
  2: { rewrite G2. exact H. }
  clear H. unfold remove_add_token in *. rewrite <- En. destruct (ntokens a <? n).
  - rewrite outcome_bind in *. rewrite <- (add_same samples init bo a b EP).
    destruct (out (opt_add_token bo a)) as [[new'|]| |]; cbn [bind] in *; try discriminate; exact G.
  - rewrite out_done in *. destruct (ntokens a =? n); cbn [assert_that bind] in *; [|discriminate].
    rewrite out_stats in *. rewrite <- EN, Es in *. cbn [bind] in *. rewrite outcome_bind in *.
    assert (Et : trade_byte bo b n s = trade_byte bo a n s).
    { unfold trade_byte, min_bytes_ext_tokens. rewrite <- En, <- El. destruct C as (_ & -> & _). reflexivity. }
    rewrite Et. destruct (out (trade_byte bo a n s)) as [[z|]| |]; cbn [bind] in *; try discriminate; [exact G|].
    fold (longs_of a) in G. fold (longs_of b).
    assert (E : order1 [] (longs_of a) = order2 [] (longs_of b)).
    { destruct Ho as [-> |Ho]; [|exact Ho].
      assert (E1 : order1 [] (longs_of a) = []).
      { destruct (order1 [] (longs_of a)) as [|h l] eqn:E; [reflexivity|]. exfalso.
        eapply replace_counts; [exact G|left; discriminate|reflexivity]. }
      pose proof (O1 [] (longs_of a)) as P1. rewrite E1 in *. apply Permutation_nil in P1.
      pose proof (longs_perm a b C) as P2. rewrite P1 in P2. apply Permutation_nil in P2. rewrite P2.
      pose proof (O2 [] []) as P3. symmetry in P3. apply Permutation_nil in P3. congruence. }
    rewrite <- E. rewrite <- (replace_same a b n s Va Vb C); [exact G|].
    intros w Hw. apply (Permutation_in _ (O1 _ _)) in Hw. apply flat_long_in in Hw. exact Hw.
Qed.
End Same.

Lemma sv_get samples init ts : saves_of samples init (get_stats ts) = [].
Proof. cbn. destruct (answer samples init (NoPairs ts)); reflexivity. Qed.
Lemma out_get samples init ts : outcome_of samples init (get_stats ts) = answer samples init (NoPairs ts).
Proof. cbn. destruct (answer samples init (NoPairs ts)); reflexivity. Qed.

(** ** The whole search *)
Section Whole.
Variables (samples : list bstr) (init : option nat) (t : token_type) (p : processing) (sp : bool) (n : nat).
Hypothesis Hsp : t = BytesHuff -> sp = true.
Hypothesis Hs : supported t n.
Local Notation out := (outcome_of samples init).
Local Notation sv := (saves_of samples init).
Local Notation bo := (optimizer_for t).

Lemma step_returns order a : shuffles order -> visited t p sp a -> ntokens a <= n ->
  exists x rc', out (optimization_step bo order a n []) = Ret (x, rc').
Proof.
  intros Ho V En. destruct (supported_bounds _ _ Hs) as (_ & Hhi).
  assert (Hin : forall m l x, In x (order m l) -> In x l) by (intros m l x; apply Permutation_in, Ho).
  destruct (ok_outcome samples init _ (fun _ => True) (fun _ => True) (step_ok samples init t p sp order n Hsp Hin Hhi a [] (fun _ => True) (fun _ => True)
    (conj V En) (fun _ => I) (fun _ _ _ _ => I))) as ([x rc'] & E & _). eauto.
Qed.

Lemma whole_same order1 order2 a b x rc' : shuffles order1 -> shuffles order2 ->
  visited t p sp a -> visited t p sp b -> same_content a b -> ntokens a <= n ->
  out (optimization_step bo order1 a n []) = Ret (x, rc') ->
  (rc' = [] /\ order1 = order2) \/ (order1 [] (longs_of a) = order2 [] (longs_of b) /\ (rc' <> [] \/ order1 = order2) /\ forall rc l, rc <> [] -> order1 rc l = order2 rc l) ->
  forall clock fuel,
  out (optimize_impl bo order1 clock fuel a n) = out (optimize_impl bo order2 clock fuel b n) /\
  sv (optimize_impl bo order1 clock fuel a n) = sv (optimize_impl bo order2 clock fuel b n).
Proof.
  intros O1 O2 Va Vb C En H Hcase clock fuel.
  assert (H2 : out (optimization_step bo order2 b n []) = Ret (x, rc')).
  { eapply step_same; [exact O1|exact O2|exact Va|exact Vb|exact C|exact H|]. destruct Hcase as [(-> & _)|(E & _)]; [left; reflexivity|right; exact E]. }
  destruct (answer_same samples init a b (vi_shaped _ _ _ _ Va) (vi_usable _ _ _ _ Va) (vi_shaped _ _ _ _ Vb) C) as (EP & EN).
  unfold optimize_impl. rewrite !out_stats, !(saves_bind _ _ (get_stats _)), !sv_get, !out_get, EN. cbn [app].
  destruct (answer samples init (NoPairs b)) as [s| |]; cbn [bind app]; try (split; reflexivity).
  rewrite !outcome_bind, !saves_bind. destruct fuel as [|fuel]; [split; reflexivity|]. cbn [optimize_loop].
  rewrite !outcome_bind, !saves_bind, !sil_step, H, H2. cbn [bind app].
  destruct x as [new|].
  - assert (L : forall round, out (optimize_loop bo order1 clock fuel round new n rc') = out (optimize_loop bo order2 clock fuel round new n rc') /\
                sv (optimize_loop bo order1 clock fuel round new n rc') = sv (optimize_loop bo order2 clock fuel round new n rc')).
    { intros round. destruct Hcase as [(_ & ->)|(_ & [Hn| ->] & Hg)]; [split; reflexivity|apply loop_order; assumption|split; reflexivity]. }
    destruct (L 1) as (L1 & L2). destruct (clock 0); cbn [outcome_of saves_of]; rewrite L1, L2; split; reflexivity.
  - cbn [pret outcome_of saves_of bind app]. rewrite !out_done, !saves_bind. cbn [outcome_of saves_of app].
    destruct (ts_sort_total _ (visited_range _ _ _ _ Va)) as (a' & Ea). destruct (ts_sort_total _ (visited_range _ _ _ _ Vb)) as (b' & Eb).
    assert (E : a' = b').
    { destruct (vi_shaped _ _ _ _ Va) as (ss & S). eapply C21_sort_canonical; [| |exact C|exact Ea|exact Eb].
      - eapply shaped_NoDup; exact S.
      - destruct (vi_usable _ _ _ _ Va) as (U & _). unfold strings in U. apply NoDup_app_iff in U. apply U. }
    rewrite Ea, Eb, E. split; reflexivity.
Qed.
End Whole.

Definition count_of (rc : smap nat) (x : bstr) : nat := match sget rc x with Some k => k | None => 0 end.

(** The strings tried for removal come sorted by how often they were tried before
    (src/optimize.rs:222, an unstable sort). *)
Definition least_removed_first (order : smap nat -> list bstr -> list bstr) : Prop :=
  forall rc l, StronglySorted (fun x y => count_of rc x <= count_of rc y) (order rc l).

Lemma no_counts_sorted l : StronglySorted (fun x y => count_of [] x <= count_of [] y) l.
Proof. induction l as [|x l IH]; constructor; [exact IH|]. apply Forall_forall. intros y _. cbn. lia. Qed.

Lemma same_flag n p t a b : good_start n p t (Some a) -> good_start n p t (Some b) -> same_content a b ->
  exists sp, (t = BytesHuff -> sp = true) /\ visited t p sp a /\ visited t p sp b /\ ntokens a <= n.
Proof.
  intros Ga Gb C. destruct (good_start_flag _ _ _ _ Ga) as (sp & Va & Hsp & Na).
  destruct (good_start_flag _ _ _ _ Gb) as (sp2 & Vb & Hsp2 & Nb). exists sp. split; [exact Hsp|]. split; [exact Va|]. split; [|exact Na].
  assert (E : sp2 = sp); [|rewrite <- E; exact Vb]. destruct (is_huff_dec t) as [Ht|Ht].
  - rewrite Hsp, Hsp2 by exact Ht. reflexivity.
  - rewrite <- (vi_para _ _ _ _ Va Ht), <- (vi_para _ _ _ _ Vb Ht). destruct C as (_ & _ & _ & C & _). congruence.
Qed.

(** Equal outcomes on one list of samples give equal results of all executions. *)
Lemma same_runs samples init n p t a b order1 order2 : shuffles order1 -> shuffles order2 -> supported t n ->
  good_start n p t (Some a) -> good_start n p t (Some b) ->
  (forall clock fuel,
    outcome_of samples init (optimize_impl (optimizer_for t) order1 clock fuel a n) = outcome_of samples init (optimize_impl (optimizer_for t) order2 clock fuel b n) /\
    saves_of samples init (optimize_impl (optimizer_for t) order1 clock fuel a n) = saves_of samples init (optimize_impl (optimizer_for t) order2 clock fuel b n)) ->
  forall threads1 threads2 total1 total2 samples1 samples2 clock1 clock2 rounds1 rounds2 m1 m2 s1 s2,
  1 <= threads1 -> 1 <= threads2 -> Permutation samples1 samples -> Permutation samples2 samples ->
  round_bound samples1 n <= rounds1 -> round_bound samples2 n <= rounds2 ->
  optimizing threads1 total1 samples1 init order1 clock1 n p t (Some a) rounds1 m1 -> returned m1 s1 ->
  optimizing threads2 total2 samples2 init order2 clock2 n p t (Some b) rounds2 m2 -> returned m2 s2 ->
  s1 = s2 /\ (clock1 = clock2 -> rounds1 = rounds2 -> m_saved m1 = m_saved m2).
Proof.
  intros O1 O2 Hs Ga Gb HE threads1 threads2 total1 total2 l1 l2 clock1 clock2 r1 r2 m1 m2 s1 s2 H1 H2 HP1 HP2 Hr1 Hr2 M1 R1 M2 R2.
  destruct (returned_outcome _ _ _ _ _ _ _ _ _ _ _ _ _ H1 O1 Hs Ga Hr1 M1 R1) as (E1 & S1).
  destruct (returned_outcome _ _ _ _ _ _ _ _ _ _ _ _ _ H2 O2 Hs Gb Hr2 M2 R2) as (E2 & S2).
  destruct (okT_perm l1 samples init _ _ _ HP1 [] (optimize_okT l1 init order1 clock1 n p t (Some a) r1 O1 Hs Ga Hr1)) as (P1 & Q1).
  destruct (okT_perm l2 samples init _ _ _ HP2 [] (optimize_okT l2 init order2 clock2 n p t (Some b) r2 O2 Hs Gb Hr2)) as (P2 & Q2).
  rewrite P1 in E1. rewrite P2 in E2. rewrite Q1 in S1. rewrite Q2 in S2.
  assert (W : forall order ts clock fuel,
    outcome_of samples init (optimize_tokenset order clock fuel n p t (Some ts)) = outcome_of samples init (optimize_impl (optimizer_for t) order clock fuel ts n) /\
    saves_of samples init (optimize_tokenset order clock fuel n p t (Some ts)) = saves_of samples init (optimize_impl (optimizer_for t) order clock fuel ts n)).
  { intros order ts clock fuel. unfold optimize_tokenset. rewrite outcome_bind, saves_bind. split; reflexivity. }
  assert (T : forall clock fuel,
    outcome_of samples init (optimize_tokenset order1 clock fuel n p t (Some a)) = outcome_of samples init (optimize_tokenset order2 clock fuel n p t (Some b)) /\
    saves_of samples init (optimize_tokenset order1 clock fuel n p t (Some a)) = saves_of samples init (optimize_tokenset order2 clock fuel n p t (Some b))).
  { intros clock fuel. destruct (W order1 a clock fuel) as (-> & ->), (W order2 b clock fuel) as (-> & ->). apply HE. }
  split.
  - rewrite (proj1 (T clock1 r1)) in E1. destruct (Nat.le_ge_cases r1 r2) as [Hle|Hle].
    + assert (E : outcome_of samples init (optimize_tokenset order2 clock2 r2 n p t (Some b)) = Ret s1).
      { rewrite <- E1, (tokenset_clock samples init order2 clock1 clock2). replace r2 with (r1 + (r2 - r1)) by lia. apply tokenset_fuel.
        rewrite (tokenset_clock samples init order2 clock2 clock1), E1. discriminate. }
      rewrite E in E2. apply ret_inj in E2. exact E2.
    + assert (E : outcome_of samples init (optimize_tokenset order2 clock1 r1 n p t (Some b)) = Ret s2).
      { rewrite <- E2, (tokenset_clock samples init order2 clock2 clock1). replace r1 with (r2 + (r1 - r2)) by lia. apply tokenset_fuel.
        rewrite (tokenset_clock samples init order2 clock1 clock2), E2. discriminate. }
      rewrite E in E1. apply ret_inj in E1. symmetry; exact E1.
  - intros <- <-. rewrite S1, S2. apply T.
Qed.

(** ** C103

    Whatever an optimization started from one arrangement of the tokens can
    return or save along the way, an optimization started from any other
    arrangement of the same tokens can too: the second one only has to break
    ties between equally often removed strings differently. *)
Theorem C103_start_order_irrelevant : forall samples init n p t a b order1,
  shuffles order1 -> supported t n -> good_start n p t (Some a) -> good_start n p t (Some b) -> same_content a b ->
  exists order2, shuffles order2 /\ (least_removed_first order1 -> least_removed_first order2) /\
  forall threads1 threads2 total1 total2 samples1 samples2 clock1 clock2 rounds1 rounds2 m1 m2 s1 s2,
  1 <= threads1 -> 1 <= threads2 -> Permutation samples1 samples -> Permutation samples2 samples ->
  round_bound samples1 n <= rounds1 -> round_bound samples2 n <= rounds2 ->
  optimizing threads1 total1 samples1 init order1 clock1 n p t (Some a) rounds1 m1 -> returned m1 s1 ->
  optimizing threads2 total2 samples2 init order2 clock2 n p t (Some b) rounds2 m2 -> returned m2 s2 ->
  s1 = s2 /\ (clock1 = clock2 -> rounds1 = rounds2 -> m_saved m1 = m_saved m2).
Proof.
  intros samples init n p t a b order1 O1 Hs Ga Gb C.
  destruct (same_flag _ _ _ _ _ Ga Gb C) as (sp & Hsp & Va & Vb & Na).
  destruct (step_returns samples init t p sp n Hsp Hs order1 a O1 Va Na) as (x & rc' & E).
  destruct rc' as [|e rc'].
  - exists order1. split; [exact O1|]. split; [intros H; exact H|]. apply same_runs; try assumption.
    eapply whole_same; try eassumption. left. split; reflexivity.
  - exists (fun rc l => match rc with [] => if list_eq_dec (list_eq_dec Byte.byte_eq_dec) l (longs_of b) then order1 [] (longs_of a) else order1 [] l | _ :: _ => order1 rc l end).
    assert (O2 : shuffles (fun rc l => match rc with [] => if list_eq_dec (list_eq_dec Byte.byte_eq_dec) l (longs_of b) then order1 [] (longs_of a) else order1 [] l | _ :: _ => order1 rc l end)).
    { intros rc l. destruct rc; [|apply O1]. destruct (list_eq_dec (list_eq_dec Byte.byte_eq_dec) l (longs_of b)) as [-> |_]; [|apply O1].
      etransitivity; [apply O1|apply longs_perm; exact C]. }
    split; [exact O2|]. split.
    + intros H rc l. destruct rc; [apply no_counts_sorted|apply H].
    + apply same_runs; try assumption. eapply whole_same; try eassumption. right. split; [|split].
      * destruct (list_eq_dec (list_eq_dec Byte.byte_eq_dec) (longs_of b) (longs_of b)) as [_|H]; [reflexivity|contradiction].
      * left. discriminate.
      * intros rc l H. destruct rc; [contradiction|reflexivity].
Qed.

(** When ties are broken in a way that does not look at the arrangement, the
    results are the same outright. *)
Theorem C103_same_result_with_fixed_ties : forall samples init n p t a b order,
  shuffles order -> (forall rc l l', Permutation l l' -> order rc l = order rc l') ->
  supported t n -> good_start n p t (Some a) -> good_start n p t (Some b) -> same_content a b ->
  forall threads1 threads2 total1 total2 samples1 samples2 clock1 clock2 rounds1 rounds2 m1 m2 s1 s2,
  1 <= threads1 -> 1 <= threads2 -> Permutation samples1 samples -> Permutation samples2 samples ->
  round_bound samples1 n <= rounds1 -> round_bound samples2 n <= rounds2 ->
  optimizing threads1 total1 samples1 init order clock1 n p t (Some a) rounds1 m1 -> returned m1 s1 ->
  optimizing threads2 total2 samples2 init order clock2 n p t (Some b) rounds2 m2 -> returned m2 s2 ->
  s1 = s2 /\ (clock1 = clock2 -> rounds1 = rounds2 -> m_saved m1 = m_saved m2).
Proof.
  intros samples init n p t a b order O Hinv Hs Ga Gb C.
  destruct (same_flag _ _ _ _ _ Ga Gb C) as (sp & Hsp & Va & Vb & Na).
  destruct (step_returns samples init t p sp n Hsp Hs order a O Va Na) as (x & rc' & E).
  apply same_runs; try assumption. eapply whole_same; try eassumption. right.
  split; [apply Hinv, longs_perm; exact C|]. split; [right; reflexivity|]. intros; reflexivity.
Qed.

(** Two arrangements of a bytes set with two added strings, and runs from both. *)
Lemma two_added : exists a b, a <> b /\ good_start 258 Raw Bytes (Some a) /\ good_start 258 Raw Bytes (Some b) /\ same_content a b.
Proof.
  destruct (visited_bytes Raw) as (V & B & L).
  assert (Nt : ntokens (new_bytes Raw) = 256) by (rewrite base_ntokens, B, L; reflexivity). clear B.
  revert V L Nt. generalize (new_bytes Raw). intros ts V L Nt.
  assert (Hq : sequences ts = []).
  { destruct (sequences ts) as [|q l] eqn:Eq; [reflexivity|]. exfalso.
    destruct (vi_seqs _ _ _ _ V (denotes ts q)) as (_ & []). rewrite Eq. left; reflexivity. }
  assert (Hno : forall x, 1 < length x -> ~ In (Str x) (tokens ts)).
  { intros x Hx Hin. unfold n_long_tokens in L. apply length_zero_iff_nil in L.
    assert (H : In (Str x) (filter is_long (tokens ts))) by (apply filter_In; split; [exact Hin|unfold is_long; apply Nat.ltb_lt; exact Hx]).
    rewrite L in H. destruct H. }
  assert (Hst : forall ts0 x, sequences ts0 = [] -> In x (strings ts0) -> In (Str x) (tokens ts0)).
  { intros ts0 x E Hx. unfold strings in Hx. rewrite E, app_nil_r in Hx. apply in_flat_map in Hx as (tk & Ht & Hi).
    destruct tk as [y|]; [|destruct Hi]. destruct Hi as [-> |[]]. exact Ht. }
  assert (Hadd : forall x y, 1 < length x -> 1 < length y -> x <> y ->
    good_start 258 Raw Bytes (Some (add_token_unchecked (add_token_unchecked ts x) y))).
  { intros x y Hx Hy Hne.
    destruct (visited_add _ _ _ ts x V Hx (fun H => Hno x Hx (Hst ts x Hq H))) as (V1 & N1 & _).
    destruct (visited_add _ _ _ (add_token_unchecked ts x) y V1 Hy) as (V2 & N2 & _).
    - intros H. apply Hst in H; [|cbn; rewrite Hq; reflexivity]. cbn in H. apply in_app_iff in H as [H|[H|[]]]; [exact (Hno y Hy H)|]. congruence.
    - exists true. split; [exact V2|]. rewrite N2, N1, Nt. lia. }
  exists (add_token_unchecked (add_token_unchecked ts [x61; x62]) [x63; x64]), (add_token_unchecked (add_token_unchecked ts [x63; x64]) [x61; x62]).
  split; [|split; [apply Hadd; cbn; (lia || discriminate)|split; [apply Hadd; cbn; (lia || discriminate)|]]].
  - unfold add_token_unchecked. intros E. injection E as E. cbn in E. rewrite <- !app_assoc in E. apply app_inv_head in E. discriminate.
  - repeat split. 1: cbn; rewrite <- !app_assoc; apply Permutation_app_head, perm_swap.
    cbn [add_token_unchecked sequences]. rewrite Hq. reflexivity.
Qed.

Example C103_hypotheses_met : exists a b order m1 m2 s1 s2, a <> b /\ same_content a b /\ shuffles order /\
  optimizing 4 3 [[x61; x62; x63]; [x61]] None (fun _ l => rev l) (fun _ => true) 258 Raw Bytes (Some a) (round_bound [[x61; x62; x63]; [x61]] 258) m1 /\ returned m1 s1 /\
  optimizing 2 3 [[x61]; [x61; x62; x63]] None order (fun _ => true) 258 Raw Bytes (Some b) (round_bound [[x61]; [x61; x62; x63]] 258) m2 /\ returned m2 s2 /\
  s1 = s2.
Proof.
  destruct two_added as (a & b & Hab & Ga & Gb & C).
  assert (Hr : shuffles (fun _ l => rev l)) by (intros m l; symmetry; apply Permutation_rev).
  assert (Hn1 : ~ In [] [[x61; x62; x63]; [x61]]) by (cbn; intuition discriminate).
  assert (Hn2 : ~ In [] [[x61]; [x61; x62; x63]]) by (cbn; intuition discriminate).
  assert (G : supported Bytes 258) by (split; [apply Nat.leb_le; reflexivity|exact I]).
  destruct (C103_start_order_irrelevant [[x61; x62; x63]; [x61]] None 258 Raw Bytes a b _ Hr G Ga Gb C) as (order & Ho & _ & H).
  destruct (proj1 (C43_optimization_never_panics_partial 4 3 _ None _ (fun _ => true) 258 Raw Bytes (Some a) _ ltac:(lia) Hn1 Hr G Ga (le_n _))) as (m1 & s1 & A1 & B1).
  destruct (proj1 (C43_optimization_never_panics_partial 2 3 _ None order (fun _ => true) 258 Raw Bytes (Some b) _ ltac:(lia) Hn2 Ho G Gb (le_n _))) as (m2 & s2 & A2 & B2).
  exists a, b, order, m1, m2, s1, s2. split; [exact Hab|]. split; [exact C|]. split; [exact Ho|]. split; [exact A1|]. split; [exact B1|]. split; [exact A2|]. split; [exact B2|].
  refine (proj1 (H 4 2 3%N 3%N _ _ _ _ _ _ m1 m2 s1 s2 _ _ (Permutation_refl _) (perm_swap _ _ _) (le_n _) (le_n _) A1 B1 A2 B2)); lia.
Qed.
