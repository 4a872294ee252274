(** * The older tokenizer: construction, scan, back-trace. *)
From Verif Require Import Base BaseLemmas LegacyModel LegacySpec.
From Verif Require TokenizerProof1 OptBytesModel.
Import TokenizerProof1 (suffix_of, suffix_refl, suffix_trans, suffix_length, suffix_nil, suffix_skipn,
  suffix_skipn_inv, suffix_both, suffix_eq, suffix_snoc, suffix_snoc_mono, longest, find_longest,
  find_longest_spec, prefixes, in_prefixes).

(** ** Token sets *)
Definition l_ok (ts : lset) : Prop := indexes (l_by_str ts) (l_strings ts).

Lemma push_ok ts s b : l_ok ts -> ~ In s (l_strings ts) -> l_ok (push_token ts s b).
Proof.
  intros H Hn. unfold l_ok, push_token, l_strings in *. cbn. rewrite map_app. cbn.
  rewrite <- (map_length lt_string (l_tokens ts)). apply indexes_snoc; assumption.
Qed.

Lemma add_mandatory_inv ts s ts' : add_mandatory ts s = Ret ts' ->
  sget (l_by_str ts) s = None /\ ts' = push_token ts s true.
Proof.
  unfold add_mandatory. intros H. apply assert_that_bind in H as (H & E). injection E as <-.
  apply negb_true_iff, smem_false in H. auto.
Qed.

Lemma l_add_inv ts s ts' : l_add_token ts s = Ret ts' ->
  (ts' = ts /\ exists i t, sget (l_by_str ts) s = Some i /\ nth_error (l_tokens ts) i = Some t /\ lt_mandatory t = true) \/
  (sget (l_by_str ts) s = None /\ ts' = push_token ts s false).
Proof.
  unfold l_add_token. destruct (sget (l_by_str ts) s) as [i|].
  - intros H. left. apply bind_ret in H as (t & Ht & H). apply assert_that_bind in H as (H & E).
    injection E as <-. apply idx_ret in Ht. eauto 10.
  - intros E; injection E as <-. right; auto.
Qed.

Lemma rebuild_indexes l : NoDup (map lt_string l) -> indexes (rebuild l) (map lt_string l).
Proof.
  unfold rebuild. intros Hnd.
  assert (H : forall r p m, l = p ++ r -> indexes m (map lt_string p) ->
            indexes (fold_left (fun m p => sinsert m (lt_string (snd p)) (fst p)) (enum_from (length p) r) m)
                    (map lt_string l)).
  { induction r as [|x r IH]; intros p m E Hm; cbn.
    - rewrite app_nil_r in E. subst. exact Hm.
    - specialize (IH (p ++ [x])). rewrite app_length in IH. cbn in IH. rewrite Nat.add_1_r in IH.
      apply IH; [rewrite <- app_assoc; exact E|].
      rewrite map_app. cbn. rewrite <- (map_length lt_string p). apply indexes_snoc; [exact Hm|].
      rewrite E, map_app in Hnd. cbn in Hnd. apply NoDup_remove_2 in Hnd.
      intros Hin. apply Hnd, in_or_app; left; exact Hin. }
  apply (H l [] []); [reflexivity|]. intros s i. cbn. destruct i; split; discriminate.
Qed.

Lemma l_remove_inv ts s ts' : l_ok ts -> l_remove_token ts s = Ret ts' ->
  exists i t, nth_error (l_tokens ts) i = Some t /\ lt_string t = s /\ lt_mandatory t = false /\
    l_tokens ts' = firstn i (l_tokens ts) ++ skipn (S i) (l_tokens ts) /\
    l_enc ts' = l_enc ts /\ l_ok ts'.
Proof.
  intros Hok H. unfold l_remove_token in H.
  apply bind_ret in H as (i & Hi & H). apply unwrap_ret in Hi.
  apply bind_ret in H as (t & Ht & H). apply idx_ret in Ht.
  apply assert_that_bind in H as (Hm & H).
  apply bind_ret in H as (tk & Hv & H). injection H as <-.
  unfold OptBytesModel.vremove in Hv. destruct (i <? length (l_tokens ts)); [|discriminate].
  injection Hv as <-. exists i, t. cbn. split; [exact Ht|].
  apply Hok in Hi. unfold l_strings in Hi. rewrite nth_error_map, Ht in Hi. cbn in Hi. injection Hi as Hi.
  split; [exact Hi|]. split; [destruct (lt_mandatory t); [discriminate|reflexivity]|].
  split; [reflexivity|]. split; [reflexivity|].
  unfold l_ok, l_strings. cbn. apply rebuild_indexes.
  pose proof (indexes_NoDup _ _ Hok) as Hnd. unfold l_strings in Hnd.
  assert (E : l_tokens ts = firstn i (l_tokens ts) ++ t :: skipn (S i) (l_tokens ts)).
  { rewrite <- (firstn_skipn i (l_tokens ts)) at 1. f_equal.
    clear - Ht. revert i Ht. induction (l_tokens ts) as [|x l IH]; intros [|i] Ht; cbn in *; try discriminate.
    - congruence.
    - apply IH; exact Ht. }
  rewrite E, map_app in Hnd. cbn in Hnd. apply NoDup_remove_1 in Hnd.
  rewrite map_app. exact Hnd.
Qed.

Lemma l_built_ok ts : l_built ts -> l_ok ts.
Proof.
  induction 1 as [e ts H|ts s ts' _ IH H|ts s ts' _ IH H].
  - unfold lset_new in H.
    assert (G : l_ok ts).
    { eapply (mfold_inv l_ok add_mandatory); [ | |exact H].
      - intros x s y _ Hs Hy. apply add_mandatory_inv in Hy as (Hn & ->). apply push_ok; [exact Hs|].
        apply (indexes_None _ _ _ Hs); exact Hn.
      - intros s i. cbn. destruct i; split; discriminate. }
    exact G.
  - apply l_add_inv in H as [(-> & _)|(Hn & ->)]; [exact IH|]. apply push_ok; [exact IH|].
    apply (indexes_None _ _ _ IH); exact Hn.
  - apply l_remove_inv in H as (i & t & _ & _ & _ & _ & _ & H); assumption.
Qed.

(** ** The longest token, or the literal *)
Section Longest.
Variable strs : list bstr.
Variable m : smap nat.
Hypothesis Hm : indexes m strs.
Hypothesis Hne : ~ In [] strs.

(** [x] is the longest token that is a suffix of [w] and has at most [n] bytes;
    the last byte if there is none, nothing if [n] is 0. *)
Definition l_longest (n : nat) (w : bstr) (x : tidx) : Prop :=
  match x with
  | LNone => n = 0
  | LLit b => 0 < n /\ suffix_of [b] w /\ forall y, suffix_of y w -> In y strs -> ~ length y <= n
  | LTok i => exists y, nth_error strs i = Some y /\ suffix_of y w /\ length y <= n /\
      forall z, suffix_of z w -> In z strs -> length z <= n -> suffix_of z y
  end.

Lemma last_suffix (s : bstr) b : nth_error s (length s - 1) = Some b -> suffix_of [b] s.
Proof.
  intros H. destruct s as [|c s] using rev_ind; [discriminate|]. clear IHs.
  rewrite app_length in H. cbn in H. replace (length s + 1 - 1) with (length s) in H by lia.
  rewrite nth_error_app2, Nat.sub_diag in H by lia. cbn in H. injection H as ->. exists s; reflexivity.
Qed.

Lemma find_l_longest a s b : a < length s -> nth_error s (length s - 1) = Some b ->
  l_longest (length s - a) s
    (match find_map (fun start => sget m (skipn start s)) (seq a (length s - a)) with
     | Some i => LTok i | None => LLit b end).
Proof.
  intros Ha Hb. destruct (find_map _ _) as [i|] eqn:E.
  - apply find_map_seq_Some in E as (k & Hk & Hi & Hn). apply Hm in Hi.
    exists (skipn k s). split; [exact Hi|]. split; [apply suffix_skipn|].
    assert (Hl : length (skipn k s) = length s - k) by apply skipn_length.
    split; [lia|]. intros z Hz Hin Hlz.
    apply (suffix_both z (skipn k s) s Hz (suffix_skipn k s)). rewrite Hl.
    pose proof (suffix_length _ _ Hz).
    destruct (Nat.le_gt_cases (length z) (length s - k)) as [|Hgt]; [assumption|].
    exfalso. specialize (Hn (length s - length z)).
    rewrite <- (suffix_skipn_inv _ _ Hz) in Hn.
    apply (indexes_In _ _ _ Hm) in Hin as (j & Hj). rewrite Hn in Hj; [discriminate|lia].
  - rewrite find_map_seq_None in E. split; [lia|]. split; [apply last_suffix; exact Hb|].
    intros y Hy Hin Hl. pose proof (suffix_length _ _ Hy) as Hly.
    assert (length y <> 0) by (destruct y; cbn; [contradiction|lia]).
    specialize (E (length s - length y)). rewrite <- (suffix_skipn_inv _ _ Hy) in E.
    apply (indexes_In _ _ _ Hm) in Hin as (j & Hj). rewrite E in Hj; [discriminate|lia].
Qed.

Lemma l_longest_widen n s w x : suffix_of s w -> n <= length s -> l_longest n s x -> l_longest n w x.
Proof.
  intros Hs Hn. destruct x as [i|b|]; cbn; [| |auto].
  - intros (y & Hy & Hys & Hl & Hmax). exists y. split; [exact Hy|].
    split; [eapply suffix_trans; eauto|]. split; [exact Hl|].
    intros z Hz Hin Hlz. apply Hmax; auto. apply (suffix_both z s w); auto; lia.
  - intros (Hp & Hb & Hno). split; [exact Hp|]. split; [eapply suffix_trans; eauto|].
    intros y Hy Hin Hl. apply (Hno y); auto. apply (suffix_both y s w); auto; lia.
Qed.
End Longest.

(** ** Construction *)
Definition l_state_good (ts : lset) (st : lstate) : Prop :=
  (lss_suffix st = [] /\ lss_tok st = LNone) \/
  (lss_suffix st <> [] /\ l_longest (l_strings ts) (length (lss_suffix st)) (lss_suffix st) (lss_tok st)).

Definition l_states_inv (ts : lset) (st : list lstate * smap nat) : Prop :=
  indexes (snd st) (map lss_suffix (fst st)) /\
  nth_error (map lss_suffix (fst st)) 0 = Some [] /\
  Forall (l_state_good ts) (fst st).

Lemma l_states_push ts states sm x tok :
  l_states_inv ts (states, sm) -> smem sm x = false ->
  x <> [] -> l_longest (l_strings ts) (length x) x tok ->
  l_states_inv ts (states ++ [mkLstate x tok []], sinsert sm x (length states)).
Proof.
  intros (Hsm & Hs0 & Hg) E Hne Hl. cbn in *. split; [|split]; cbn.
  - rewrite map_app; cbn. rewrite <- (map_length lss_suffix states). apply indexes_snoc; [exact Hsm|].
    apply smem_false in E. apply (indexes_None _ _ _ Hsm); exact E.
  - destruct states; cbn in *; [discriminate|exact Hs0].
  - apply Forall_app; split; [exact Hg|]. constructor; [|constructor]. right. cbn. auto.
Qed.

Lemma l_prefix_step ts st pref : l_ok ts -> ~ In [] (l_strings ts) -> l_states_inv ts st -> pref <> [] ->
  exists st', l_prefix_state ts st pref = Ret st' /\ l_states_inv ts st' /\
     forall x, In x (map lss_suffix (fst st')) <-> In x (map lss_suffix (fst st)) \/ x = pref.
Proof.
  destruct st as [states sm]. intros Hok Hn Hst Hne. cbn [l_prefix_state].
  destruct (smem sm pref) eqn:E.
  - exists (states, sm). split; [reflexivity|]. split; [exact Hst|]. intros x; cbn. split; [tauto|].
    intros [H| ->]; [exact H|]. destruct Hst as (Hsm & _). cbn in Hsm.
    apply smem_true in E. apply (indexes_In _ _ _ Hsm) in E; exact E.
  - assert (Hl : 0 < length pref) by (destruct pref; [congruence|cbn; lia]).
    rewrite checked_sub_le by lia. cbn [bind].
    destruct (nth_error pref (length pref - 1)) as [b|] eqn:Eb; [|apply nth_error_None in Eb; lia].
    unfold idx. rewrite Eb. cbn [unwrap bind]. eexists; split; [reflexivity|]. split.
    + apply l_states_push; auto.
      pose proof (find_l_longest _ _ Hok Hn 0 pref b Hl Eb) as F. rewrite Nat.sub_0_r in F. exact F.
    + intros x; cbn. rewrite map_app, in_app_iff; cbn. intuition.
Qed.

Lemma l_prefixes_loop ts PL : l_ok ts -> ~ In [] (l_strings ts) -> ~ In [] PL ->
  forall st, l_states_inv ts st ->
  exists r, mfold (l_prefix_state ts) PL st = Ret r /\ l_states_inv ts r /\
  forall x, In x (map lss_suffix (fst r)) <-> In x (map lss_suffix (fst st)) \/ In x PL.
Proof.
  intros Hok Hn. induction PL as [|p PL IH]; intros Hp st Hst; cbn [mfold].
  - exists st. cbn. split; [reflexivity|]. split; [exact Hst|]. tauto.
  - destruct (l_prefix_step ts st p Hok Hn Hst) as (st' & -> & Hst' & Hin).
    { intros ->; apply Hp; left; reflexivity. }
    cbn [bind]. destruct (IH ltac:(intros ?; apply Hp; right; assumption) st' Hst') as (r & Hr & Hi & Hx).
    exists r. split; [exact Hr|]. split; [exact Hi|]. intros x. rewrite Hx, Hin. cbn. intuition.
Qed.

(** When the prefixes are there, a byte without a state is not a token. *)
Lemma l_literal_step ts st b : ~ In [] (l_strings ts) -> l_states_inv ts st ->
  (In [b] (l_strings ts) -> In [b] (map lss_suffix (fst st))) ->
  l_states_inv ts (l_literal_state st b) /\
  forall x, In x (map lss_suffix (fst (l_literal_state st b))) <-> In x (map lss_suffix (fst st)) \/ x = [b].
Proof.
  destruct st as [states sm]. intros Hn Hst Hb. cbn [l_literal_state].
  destruct (smem sm [b]) eqn:E.
  - split; [exact Hst|]. intros x; cbn. split; [tauto|]. intros [H| ->]; [exact H|].
    destruct Hst as (Hsm & _). cbn in Hsm. apply smem_true in E. apply (indexes_In _ _ _ Hsm) in E; exact E.
  - split.
    + apply l_states_push; auto; [discriminate|]. cbn. split; [lia|]. split; [apply suffix_refl|].
      intros y Hy Hin _. destruct Hst as (Hsm & _). cbn in Hsm.
      apply smem_false in E. rewrite (indexes_None _ _ _ Hsm) in E. apply E, Hb.
      destruct y as [|c y]; [contradiction|].
      apply (suffix_snoc _ [] b) in Hy as (z & Ez & Hz); [|discriminate].
      apply suffix_nil in Hz as ->. rewrite Ez in Hin. exact Hin.
    + intros x; cbn. rewrite map_app, in_app_iff; cbn. intuition.
Qed.

Lemma l_literals_loop ts l : ~ In [] (l_strings ts) ->
  forall st, l_states_inv ts st ->
  (forall b, In [b] (l_strings ts) -> In [b] (map lss_suffix (fst st))) ->
  l_states_inv ts (fold_left l_literal_state l st) /\
  forall x, In x (map lss_suffix (fst (fold_left l_literal_state l st))) <->
            In x (map lss_suffix (fst st)) \/ exists b, In b l /\ x = [b].
Proof.
  intros Hn. induction l as [|b l IH]; intros st Hst Hb; cbn [fold_left].
  - split; [exact Hst|]. intros x. split; [auto|]. intros [H|(b & [] & _)]; exact H.
  - destruct (l_literal_step ts st b Hn Hst (Hb b)) as (H1 & H2).
    destruct (IH _ H1) as (H3 & H4).
    { intros c Hc. apply H2. left. apply Hb; exact Hc. }
    split; [exact H3|]. intros x. rewrite H4, H2. split.
    + intros [[H|H]|(c & Hc & E)]; [auto|right; exists b; split; [left; reflexivity|exact H]|right; exists c; split; [right; exact Hc|exact E]].
    + intros [H|(c & [<-|Hc] & E)]; [auto|auto|right; eauto].
Qed.

Record ltk_ok (ts : lset) (tk : ltokenizer) : Prop := {
  ltk_set : lz_set tk = ts;
  ltk_suffix : forall i y, nth_error (l_strings ts) i = Some y ->
      exists x, nth_error (lz_suffixes tk) i = Some x /\ l_longest (l_strings ts) (length y - 1) y x;
  ltk_state0 : exists st, nth_error (lz_states tk) 0 = Some st /\ lss_suffix st = [];
  ltk_state_in : forall x, In x (map lss_suffix (lz_states tk)) <->
      x = [] \/ (exists b, x = [b]) \/ (x <> [] /\ exists r, In (x ++ r) (l_strings ts));
  ltk_state_good : Forall (l_state_good ts) (lz_states tk);
  ltk_next : forall st b, In st (lz_states tk) ->
      exists j st', nth_error (lss_next st) (b2n b) = Some j /\
        nth_error (lz_states tk) j = Some st' /\ lss_suffix st' <> [] /\ suffix_of (lss_suffix st') (lss_suffix st ++ [b]) /\
        forall x, suffix_of x (lss_suffix st ++ [b]) -> In x (map lss_suffix (lz_states tk)) -> suffix_of x (lss_suffix st')
}.

Lemma l_next_spec sm L suffix b : indexes sm L -> nth_error L 0 = Some [] -> In [b] L ->
  exists j x, l_next sm suffix b = Ret j /\ nth_error L j = Some x /\ x <> [] /\
    suffix_of x (suffix ++ [b]) /\ forall y, suffix_of y (suffix ++ [b]) -> In y L -> suffix_of y x.
Proof.
  intros Hm H0 Hb. pose proof (find_longest_spec sm L 0 (suffix ++ [b]) Hm H0) as Hl.
  unfold find_longest in Hl. rewrite Nat.sub_0_r in Hl. unfold l_next.
  destruct (find_map (fun start => sget sm (skipn start (suffix ++ [b]))) (seq 0 (length (suffix ++ [b])))) as [j|].
  - destruct Hl as [(-> & Hno)|(Hp & x & Hx & Hne & Hs & _ & Hmax)].
    + exfalso. apply (Hno [b]); [exists suffix; reflexivity|discriminate| |exact Hb].
      rewrite app_length. cbn. lia.
    + exists j, x. repeat split; auto. intros y Hy Hin. apply Hmax; auto. apply suffix_length; exact Hy.
  - exfalso. destruct Hl as [(_ & Hno)|(Hp & _)]; [|lia].
    apply (Hno [b]); [exists suffix; reflexivity|discriminate| |exact Hb].
    rewrite app_length. cbn. lia.
Qed.

Lemma l_suffix_spec ts t : l_ok ts -> ~ In [] (l_strings ts) -> In t (l_tokens ts) ->
  exists x, l_suffix ts t = Ret x /\ l_longest (l_strings ts) (length (lt_string t) - 1) (lt_string t) x.
Proof.
  intros Hok Hn Ht. unfold l_suffix. set (s := lt_string t).
  assert (Hs : s <> []).
  { intros E. apply Hn. unfold l_strings. apply in_map_iff. exists t; auto. }
  destruct (Nat.eqb_spec (length s) 1) as [E|E].
  - exists LNone. split; [reflexivity|]. cbn. lia.
  - assert (1 < length s) by (destruct s as [|? [|]]; cbn in *; [congruence|congruence|lia]).
    rewrite checked_sub_le by lia. cbn [bind].
    destruct (nth_error s (length s - 1)) as [b|] eqn:Eb; [|apply nth_error_None in Eb; lia].
    unfold idx. rewrite Eb. cbn [unwrap bind]. eexists; split; [reflexivity|].
    apply (find_l_longest _ _ Hok Hn 1 s b); [lia|exact Eb].
Qed.

Lemma l_suffix_empty ts t : lt_string t = [] -> l_suffix ts t = Panic.
Proof. intros E. unfold l_suffix. rewrite E. reflexivity. Qed.

Lemma l_fill_spec sm states r : mmap (l_fill sm) states = Ret r ->
  map lss_suffix r = map lss_suffix states /\ map lss_tok r = map lss_tok states.
Proof.
  intros H; apply mmap_ret in H. induction H as [|st st' l l' H _ IH]; cbn; [auto|].
  unfold l_fill in H. apply bind_ret in H as (nx & _ & H). injection H as <-. cbn.
  destruct IH as [-> ->]; auto.
Qed.

Lemma mmap_panic {A B} (f : A -> outcome B) l x : In x l -> f x = Panic -> (forall y, f y <> OutOfFuel) -> mmap f l = Panic.
Proof.
  intros Hx Hf Ho. induction l as [|y l IH]; [destruct Hx|]. cbn.
  destruct Hx as [->|Hx].
  - rewrite Hf. reflexivity.
  - pose proof (Ho y). destruct (f y); cbn; [|reflexivity|congruence]. rewrite (IH Hx). reflexivity.
Qed.

Lemma ltokenizer_new_empty ts : In [] (l_strings ts) -> ltokenizer_new ts = Panic.
Proof.
  intros H. unfold l_strings in H. apply in_map_iff in H as (t & Es & Ht).
  unfold ltokenizer_new, generate_suffixes. rewrite (mmap_panic _ _ t); auto.
  - apply l_suffix_empty; exact Es.
  - intros y. unfold l_suffix. destruct (length (lt_string y) =? 1); [discriminate|].
    unfold checked_sub. destruct (1 <=? length (lt_string y)); cbn; [|discriminate].
    unfold idx. destruct (nth_error _ _); cbn; discriminate.
Qed.

Lemma ltokenizer_new_ok ts : l_ok ts -> ~ In [] (l_strings ts) ->
  exists tk, ltokenizer_new ts = Ret tk /\ ltk_ok ts tk.
Proof.
  intros Hok Hn. unfold ltokenizer_new.
  destruct (mmap_total (l_suffix ts) (l_tokens ts)) as (suf & Esuf).
  { intros t Ht. destruct (l_suffix_spec ts t Hok Hn Ht) as (x & -> & _). eauto. }
  unfold generate_suffixes. rewrite Esuf. cbn [bind]. unfold l_create_states.
  set (PL := flat_map _ (l_tokens ts)).
  assert (HPL : forall x, In x PL <-> x <> [] /\ exists r, In (x ++ r) (l_strings ts)).
  { intros x. unfold PL, l_strings. rewrite in_flat_map. split.
    - intros (t & Ht & Hx). change (In x (prefixes (lt_string t))) in Hx. apply in_prefixes in Hx as (Hne & r & E).
      split; [exact Hne|]. exists r. rewrite <- E. apply in_map; exact Ht.
    - intros (Hne & r & Hin). apply in_map_iff in Hin as (t & E & Ht). exists t. split; [exact Ht|].
      change (In x (prefixes (lt_string t))). apply in_prefixes. eauto. }
  assert (H0 : l_states_inv ts ([mkLstate [] LNone []], sinsert [] [] 0)).
  { split; [|split; [reflexivity|constructor; [left; auto|constructor]]].
    intros s i; cbn. split.
    - destruct (bstr_eqb_spec s []) as [->|Hne]; cbn; [|discriminate].
      intros E; injection E as <-; reflexivity.
    - destruct i as [|[|i]]; cbn; intros E; try discriminate. injection E as <-; reflexivity. }
  destruct (l_prefixes_loop ts PL Hok Hn ltac:(intros Hx; apply HPL in Hx; tauto) _ H0) as (st1 & -> & Hst1 & Hin1).
  cbn [bind].
  destruct (l_literals_loop ts all_bytes Hn st1 Hst1) as (Hst2 & Hin2).
  { intros b Hb. apply Hin1. right. apply HPL. split; [discriminate|]. exists []. exact Hb. }
  destruct (fold_left l_literal_state all_bytes st1) as [states sm]. cbn [fst] in *.
  assert (Hin : forall x, In x (map lss_suffix states) <->
      x = [] \/ (exists b, x = [b]) \/ (x <> [] /\ exists r, In (x ++ r) (l_strings ts))).
  { intros x. rewrite Hin2, Hin1, HPL. cbn. split.
    - intros [[[E|[]]|H]|(b & _ & E)]; [auto|auto|right; left; eauto].
    - intros [->|[(b & ->)|H]]; [auto|right; exists b; split; [apply in_all_bytes|reflexivity]|auto]. }
  destruct Hst2 as (Hsm & Hs0 & Hg). cbn [fst snd] in *.
  destruct (mmap_total (l_fill sm) states) as (r & Er).
  { intros st _. unfold l_fill.
    destruct (mmap_total (l_next sm (lss_suffix st)) all_bytes) as (nx & ->); [|cbn; eauto].
    intros b _. destruct (l_next_spec sm _ (lss_suffix st) b Hsm Hs0) as (j & x & -> & _); [|eauto].
    apply Hin. right; left; eauto. }
  rewrite Er. cbn [bind]. eexists; split; [reflexivity|].
  destruct (l_fill_spec _ _ _ Er) as (Es & Et).
  constructor; cbn [lz_set lz_suffixes lz_states].
  - reflexivity.
  - intros i y Hy. unfold l_strings in Hy. rewrite nth_error_map in Hy.
    destruct (nth_error (l_tokens ts) i) as [t|] eqn:Ht; [|discriminate]. cbn in Hy. injection Hy as <-.
    apply mmap_ret in Esuf. destruct (Forall2_nth _ _ _ Esuf i t Ht) as (x & Hx & Ex).
    exists x. split; [exact Hx|].
    destruct (l_suffix_spec ts t Hok Hn (nth_error_In _ _ Ht)) as (x' & Ex' & Hl). congruence.
  - rewrite <- Es, nth_error_map in Hs0. destruct (nth_error r 0) as [st|]; [|discriminate]. cbn in Hs0.
    exists st. split; congruence.
  - rewrite Es. exact Hin.
  - assert (Hgen : forall l l', map lss_suffix l = map lss_suffix l' -> map lss_tok l = map lss_tok l' ->
                        Forall (l_state_good ts) l' -> Forall (l_state_good ts) l).
    { clear. induction l as [|st l IH]; intros [|st' l'] H1 H2 HF; cbn in *; try discriminate; [constructor|].
      injection H1 as E1 H1. injection H2 as E2 H2. inversion HF; subst.
      constructor; [|eapply IH; eauto]. unfold l_state_good in *. rewrite E1, E2. assumption. }
    exact (Hgen _ _ Es Et Hg).
  - intros st b Hst. apply mmap_ret in Er. apply In_nth_error in Hst as (k & Hk).
    destruct (Forall2_nth_r _ _ _ Er k st Hk) as (st0 & Hk0 & Hf).
    unfold l_fill in Hf. apply bind_ret in Hf as (nx & Hnx & Hf). injection Hf as <-. cbn.
    apply mmap_ret in Hnx.
    destruct (Forall2_nth _ _ _ Hnx _ _ (nth_error_all_bytes b)) as (j & Hj & Hnext).
    destruct (l_next_spec sm _ (lss_suffix st0) b Hsm Hs0) as (j' & x & Ej & Hx & Hxn & Hxs & Hmax).
    { apply Hin. right; left; eauto. }
    rewrite Hnext in Ej; injection Ej as <-. rewrite <- Es, nth_error_map in Hx.
    destruct (nth_error r j) as [st'|] eqn:Ej; [|discriminate]. cbn in Hx. injection Hx as <-.
    exists j, st'. rewrite Es. auto.
Qed.

(** ** Segmentations *)
Lemma l_seg_app ts xs ys s t : l_segments ts xs s -> l_segments ts ys t -> l_segments ts (xs ++ ys) (s ++ t).
Proof.
  induction 1 as [|x xs s r Hp Hps IH]; intros Hq; cbn; [exact Hq|].
  rewrite <- app_assoc. constructor; auto.
Qed.

Lemma l_seg_snoc ts xs s x y : l_segments ts xs s -> l_piece_string ts x = Some y -> l_segments ts (xs ++ [x]) (s ++ y).
Proof.
  intros Hs Hp. apply l_seg_app; [exact Hs|]. rewrite <- (app_nil_r y). constructor; [exact Hp|constructor].
Qed.

Lemma l_seg_app_inv ts xs ys w : l_segments ts (xs ++ ys) w ->
  exists s t, w = s ++ t /\ l_segments ts xs s /\ l_segments ts ys t.
Proof.
  revert w; induction xs as [|x xs IH]; intros w H; cbn in H.
  - exists [], w; repeat split; [constructor|exact H].
  - inversion H as [|? ? s r Hp Hr]; subst. destruct (IH _ Hr) as (s1 & t & -> & H1 & H2).
    exists (s ++ s1), t. rewrite app_assoc. repeat split; auto. constructor; auto.
Qed.

Lemma l_seg_single ts x w : l_segments ts [x] w -> l_piece_string ts x = Some w.
Proof.
  intros H; inversion H as [|? ? s r Hp Hr]; subst. inversion Hr; subst. rewrite app_nil_r; exact Hp.
Qed.

Lemma l_seg_cost_snoc e xs x : l_seg_cost e (xs ++ [x]) = l_seg_cost e xs + l_piece_cost e x.
Proof. unfold l_seg_cost. rewrite map_app, sum_app. cbn. lia. Qed.

Lemma l_seg_fun ts xs s t : l_segments ts xs s -> l_segments ts xs t -> s = t.
Proof.
  intros H; revert t; induction H as [|x xs s r Hp _ IH]; intros t Ht; inversion Ht as [|? ? s' r' Hp' Hr']; subst; [reflexivity|].
  rewrite Hp in Hp'. injection Hp' as <-. f_equal. apply IH; exact Hr'.
Qed.

Lemma l_canonical_snoc ts xs s x y : l_canonical ts xs s -> l_piece_string ts x = Some y ->
  l_optimal ts (xs ++ [x]) (s ++ y) ->
  (forall zs z y', l_optimal ts (zs ++ [z]) (s ++ y) -> l_piece_string ts z = Some y' -> length y' <= length y) ->
  l_canonical ts (xs ++ [x]) (s ++ y).
Proof.
  intros ((Hseg & _) & Hcan) Hy Hopt Hlong. split; [exact Hopt|].
  intros a x0 b s0 y0 E Ha Hx0 zs z y' Hz Hy'.
  destruct b as [|b0 b _] using rev_ind.
  - change [x0] with ([x0] ++ []) in E. rewrite app_nil_r in E. apply app_inj_tail in E as [-> ->].
    rewrite (l_seg_fun _ _ _ _ Ha Hseg) in Hz. rewrite Hy in Hx0. injection Hx0 as <-.
    exact (Hlong zs z y' Hz Hy').
  - change (x0 :: b ++ [b0]) with ((x0 :: b) ++ [b0]) in E. rewrite app_assoc in E. apply app_inj_tail in E as [E _].
    exact (Hcan a x0 b s0 y0 E Ha Hx0 zs z y' Hz Hy').
Qed.

Lemma literal_cost_pos e : 2 <= literal_cost e.
Proof.
  destruct e; unfold literal_cost; try lia.
Qed.

(** ** The scan *)
Section Scan.
Variable ts : lset.
Variable tk : ltokenizer.
Hypothesis Hok : l_ok ts.
Hypothesis Hn : ~ In [] (l_strings ts).
Hypothesis Htk : ltk_ok ts tk.

Let strs := l_strings ts.
Let e := l_enc ts.

Definition l_at (w : bstr) (i : nat) : Prop :=
  exists st, nth_error (lz_states tk) i = Some st /\ suffix_of (lss_suffix st) w /\
    forall x, suffix_of x w -> In x (map lss_suffix (lz_states tk)) -> suffix_of x (lss_suffix st).

Lemma l_at_0 : l_at [] 0.
Proof.
  destruct (ltk_state0 _ _ Htk) as (st & Hst & E). exists st. split; [exact Hst|].
  rewrite E. split; [apply suffix_refl|]. intros x Hx _; exact Hx.
Qed.

Lemma l_at_step w i b : l_at w i ->
  exists st j st', nth_error (lz_states tk) i = Some st /\ nth_error (lss_next st) (b2n b) = Some j /\
    nth_error (lz_states tk) j = Some st' /\ lss_suffix st' <> [] /\ l_at (w ++ [b]) j.
Proof.
  intros (st & Hst & Hsuf & Hmax).
  destruct (ltk_next _ _ Htk st b (nth_error_In _ _ Hst)) as (j & st' & Hj & Hst' & Hne & Hs & Hl).
  exists st, j, st'. do 4 (split; [assumption|]). exists st'. split; [exact Hst'|]. split.
  - eapply suffix_trans; [exact Hs|]. apply suffix_snoc_mono; exact Hsuf.
  - intros y Hy Hin. destruct (bstr_eq_dec y []) as [->|Hyne].
    + exists (lss_suffix st'); rewrite app_nil_r; reflexivity.
    + apply suffix_snoc in Hy as (z & -> & Hz); [|exact Hyne]. apply Hl; [|exact Hin].
      apply suffix_snoc_mono, Hmax; [exact Hz|].
      apply (ltk_state_in _ _ Htk). destruct z as [|c z]; [left; reflexivity|right; right].
      split; [discriminate|]. apply (ltk_state_in _ _ Htk) in Hin as [E|[(c' & E)|(_ & r & Hr)]].
      * destruct z; discriminate.
      * destruct z; discriminate.
      * exists ([b] ++ r). rewrite app_assoc. exact Hr.
Qed.

Lemma l_at_longest w i st : l_at w i -> nth_error (lz_states tk) i = Some st -> lss_suffix st <> [] ->
  l_longest strs (length w) w (lss_tok st).
Proof.
  intros (st' & Hst' & Hsuf & Hmax) Hst Hne. rewrite Hst in Hst'; injection Hst' as <-.
  pose proof (ltk_state_good _ _ Htk) as Hg. rewrite Forall_forall in Hg.
  destruct (Hg st (nth_error_In _ _ Hst)) as [(E & _)|(_ & Hl)]; [contradiction|].
  assert (Hall : forall y, suffix_of y w -> In y strs -> suffix_of y (lss_suffix st)).
  { intros y Hy Hin. apply Hmax; [exact Hy|]. apply (ltk_state_in _ _ Htk). right; right.
    split; [intros ->; contradiction|]. exists []. rewrite app_nil_r. exact Hin. }
  destruct (lss_tok st) as [k|b|]; cbn in Hl |- *.
  - destruct Hl as (y & Hy & Hys & Hlen & Hm). exists y. split; [exact Hy|].
    split; [eapply suffix_trans; eauto|].
    split; [apply suffix_length; eapply suffix_trans; eauto|].
    intros z Hz Hin _. apply Hm; auto. apply suffix_length; auto.
  - destruct Hl as (Hp & Hb & Hno). split; [|split].
    + apply suffix_length in Hsuf. lia.
    + eapply suffix_trans; eauto.
    + intros y Hy Hin _. apply (Hno y); auto. apply suffix_length; auto.
  - destruct (lss_suffix st); [congruence|discriminate].
Qed.

(** Using [x] as the last piece of [w] costs [c], given the costs [cs] of the
    shorter prefixes. *)
Definition lcand (cs : list dstate) (w : bstr) (x : tidx) (c : nat) : Prop :=
  exists y prev, l_piece_string ts x = Some y /\ suffix_of y w /\
    nth_error cs (length w - length y) = Some prev /\ c = fst prev + l_piece_cost e x.

Lemma piece_nonempty x y : l_piece_string ts x = Some y -> y <> [].
Proof.
  destruct x as [i|b|]; cbn; intros H E; subst y.
  - apply nth_error_In in H. contradiction.
  - congruence.
  - discriminate.
Qed.

Lemma lcand_tok cs w i y prev : nth_error strs i = Some y -> suffix_of y w ->
  nth_error cs (length w - length y) = Some prev -> lcand cs w (LTok i) (fst prev + 1).
Proof. intros H1 H2 H3. exists y, prev. auto. Qed.

(** [r] is a cheapest candidate of length at most [n], the longest of these. *)
Definition lbest (cs : list dstate) (w : bstr) (n : nat) (r : dstate) : Prop :=
  exists y, l_piece_string ts (snd r) = Some y /\ length y <= n /\ lcand cs w (snd r) (fst r) /\
    forall x' y' c, l_piece_string ts x' = Some y' -> length y' <= n -> lcand cs w x' c ->
      fst r <= c /\ (c = fst r -> length y' <= length y).

(** A candidate of the length of the longest token costs at least as much. *)
Lemma same_length_cand cs w i y prev n x' y' c : length cs = length w ->
  nth_error strs i = Some y -> suffix_of y w -> length y <= n ->
  (forall z, suffix_of z w -> In z strs -> length z <= n -> suffix_of z y) ->
  nth_error cs (length cs - length y) = Some prev ->
  l_piece_string ts x' = Some y' -> length y' <= n -> lcand cs w x' c -> ~ length y' <= length y - 1 ->
  fst prev + 1 <= c /\ length y' <= length y.
Proof.
  intros Hcs Hy Hys Hlen Hmax Ep Hy' Hlen' (y2 & prev2 & Hy2 & Hs2 & Hp2 & ->) Hgt.
  rewrite Hy' in Hy2. injection Hy2 as <-.
  destruct x' as [i'|b'|]; [| |discriminate].
  - assert (Hsy : suffix_of y' y).
    { apply Hmax; auto. eapply nth_error_In; exact Hy'. }
    apply suffix_length in Hsy. assert (length y' = length y) as El by lia.
    rewrite <- Hcs, El, Ep in Hp2. injection Hp2 as <-. cbn. lia.
  - assert (0 < length y).
    { apply nth_error_In in Hy. destruct y; [contradiction|cbn; lia]. }
    cbn in Hy'. injection Hy' as <-. cbn [length] in *. assert (length y = 1) as El by lia.
    rewrite <- Hcs, <- El, Ep in Hp2. injection Hp2 as <-. cbn [l_piece_cost].
    pose proof (literal_cost_pos e). lia.
Qed.

Lemma l_chain_spec cs w : length cs = length w ->
  forall fuel n x best,
  n <= fuel -> n <= length w -> l_longest strs n w x ->
  exists r, l_chain fuel tk (literal_cost e) cs x best = Ret r /\
    ((r = best /\ forall x' y c, l_piece_string ts x' = Some y -> length y <= n -> lcand cs w x' c -> fst best <= c) \/
     (fst r < fst best /\ lbest cs w n r)).
Proof.
  intros Hcs. induction fuel as [|fuel IH]; intros n x best Hf Hw Hl.
  - assert (n = 0) as -> by lia.
    assert (x = LNone) as ->.
    { destruct x as [i|b|]; [| |reflexivity].
      - destruct Hl as (y & Hy & _ & Hlen & _). apply nth_error_In in Hy.
        destruct y; [contradiction|cbn in Hlen; lia].
      - destruct Hl as (Hp & _). lia. }
    cbn. exists best. split; [reflexivity|]. left. split; [reflexivity|].
    intros x' y c Hy Hlen _. apply piece_nonempty in Hy. destruct y; [congruence|cbn in Hlen; lia].
  - destruct x as [i|b|]; cbn [l_chain].
    + destruct Hl as (y & Hy & Hys & Hlen & Hmax). rewrite (ltk_set _ _ Htk).
      assert (Ht : exists t, nth_error (l_tokens ts) i = Some t /\ lt_string t = y).
      { unfold strs, l_strings in Hy. rewrite nth_error_map in Hy.
        destruct (nth_error (l_tokens ts) i) as [t|]; [|discriminate]. cbn in Hy. injection Hy as <-. eauto. }
      destruct Ht as (t & Ht & Es). unfold idx at 1. rewrite Ht. cbn [unwrap bind]. rewrite Es.
      assert (Hyl : 0 < length y).
      { apply nth_error_In in Hy. destruct y; [contradiction|cbn; lia]. }
      rewrite checked_sub_le by lia. cbn [bind].
      destruct (nth_error cs (length cs - length y)) as [prev|] eqn:Ep; [|apply nth_error_None in Ep; lia].
      unfold idx at 1. rewrite Ep. cbn [unwrap bind].
      destruct (ltk_suffix _ _ Htk i y Hy) as (sx & Hsx & Hsl).
      unfold idx at 1. rewrite Hsx. cbn [unwrap bind].
      assert (Hc : lcand cs w (LTok i) (fst prev + 1)) by (apply (lcand_tok cs w i y); auto; congruence).
      set (best' := if fst prev + 1 <? fst best then (fst prev + 1, LTok i) else best).
      destruct (IH (length y - 1) sx best') as (r & Hr & Hcase);
        [lia|lia|apply (l_longest_widen strs _ y); auto; lia|].
      exists r. split; [exact Hr|].
      assert (Hlong : forall x' y' c, l_piece_string ts x' = Some y' -> length y' <= n -> lcand cs w x' c ->
         ~ length y' <= length y - 1 -> fst prev + 1 <= c /\ length y' <= length y).
      { intros x' y' c Hy' Hl' Hc' Hgt. eapply same_length_cand; eauto. }
      destruct Hcase as [(-> & Hall)|(Hlt & y1 & Hy1 & Hl1 & Hc1 & Hall)].
      * unfold best' in *. destruct (Nat.ltb_spec (fst prev + 1) (fst best)) as [Hb|Hb]; cbn [fst snd] in *.
        -- right. split; [exact Hb|]. exists y. cbn [snd fst]. split; [exact Hy|]. split; [exact Hlen|]. split; [exact Hc|].
           intros x' y' c Hy' Hl' Hc'. destruct (Nat.le_gt_cases (length y') (length y - 1)) as [Hle|Hgt].
           ++ split; [exact (Hall x' y' c Hy' Hle Hc')|lia].
           ++ destruct (Hlong x' y' c Hy' Hl' Hc' ltac:(lia)). split; [assumption|auto].
        -- left. split; [reflexivity|]. intros x' y' c Hy' Hl' Hc'.
           destruct (Nat.le_gt_cases (length y') (length y - 1)) as [Hle|Hgt]; [exact (Hall x' y' c Hy' Hle Hc')|].
           destruct (Hlong x' y' c Hy' Hl' Hc' ltac:(lia)). lia.
      * right. assert (Hb' : fst best' <= fst best /\ fst best' <= fst prev + 1).
        { unfold best'. destruct (Nat.ltb_spec (fst prev + 1) (fst best)); cbn; lia. }
        split; [lia|]. exists y1. split; [exact Hy1|]. split; [lia|]. split; [exact Hc1|].
        intros x' y' c Hy' Hl' Hc'. destruct (Nat.le_gt_cases (length y') (length y - 1)) as [Hle|Hgt].
        -- exact (Hall x' y' c Hy' Hle Hc').
        -- destruct (Hlong x' y' c Hy' Hl' Hc' ltac:(lia)). split; [lia|]. intros ->. lia.
    + destruct Hl as (Hp & Hb & Hno). assert (1 <= length w) by lia.
      rewrite checked_sub_le by lia. cbn [bind].
      destruct (nth_error cs (length cs - 1)) as [prev|] eqn:Ep; [|apply nth_error_None in Ep; lia].
      unfold idx. rewrite Ep. cbn [unwrap bind]. eexists. split; [reflexivity|].
      assert (Hc : lcand cs w (LLit b) (fst prev + literal_cost e)).
      { exists [b], prev. cbn. rewrite <- Hcs. auto. }
      assert (Hall : forall x' y c, l_piece_string ts x' = Some y -> length y <= n -> lcand cs w x' c ->
         fst prev + literal_cost e <= c /\ length y <= 1).
      { intros x' y c Hy Hlen (y2 & prev2 & Hy2 & Hs2 & Hp2 & ->). rewrite Hy in Hy2. injection Hy2 as <-.
        destruct x' as [i'|b'|]; [| |discriminate].
        -- exfalso. apply (Hno y); auto. eapply nth_error_In; exact Hy.
        -- cbn in Hy. injection Hy as <-. cbn in Hp2. rewrite <- Hcs, Ep in Hp2. injection Hp2 as <-. cbn. lia. }
      destruct (Nat.ltb_spec (fst prev + literal_cost e) (fst best)) as [Hlt|Hge]; cbn [fst snd].
      * right. split; [exact Hlt|]. exists [b]. cbn [fst snd]. split; [reflexivity|]. split; [cbn; lia|]. split; [exact Hc|].
        intros x' y c Hy Hlen Hc'. destruct (Hall x' y c Hy Hlen Hc'). split; [assumption|auto].
      * left. split; [reflexivity|]. intros x' y c Hy Hlen Hc'. destruct (Hall x' y c Hy Hlen Hc'). lia.
    + cbn in Hl. subst n. exists best. split; [reflexivity|]. left. split; [reflexivity|].
      intros x' y c Hy Hlen _. apply piece_nonempty in Hy. destruct y; [congruence|cbn in Hlen; lia].
Qed.

(** Costs computed so far are optimal, and pieces lead back. *)
Definition lcs_ok (bytes : bstr) (cs : list dstate) : Prop :=
  (exists x, nth_error cs 0 = Some (0, x)) /\
  forall k c, nth_error cs k = Some c ->
    (exists xs, l_optimal ts xs (firstn k bytes) /\ l_seg_cost e xs = fst c) /\
    (0 < k -> exists y prev, l_piece_string ts (snd c) = Some y /\ suffix_of y (firstn k bytes) /\
        nth_error cs (k - length y) = Some prev /\ fst c = fst prev + l_piece_cost e (snd c) /\
        forall x' y' prev', l_piece_string ts x' = Some y' -> suffix_of y' (firstn k bytes) ->
          nth_error cs (k - length y') = Some prev' -> fst prev' + l_piece_cost e x' = fst c -> length y' <= length y).

Lemma firstn_suffix (w x : bstr) : suffix_of x w -> w = firstn (length w - length x) w ++ x.
Proof.
  intros H. pose proof (firstn_skipn (length w - length x) w) as E.
  rewrite <- (suffix_skipn_inv _ _ H) in E. symmetry; exact E.
Qed.

Lemma lcand_optimal bytes cs w m :
  length cs = length w -> (exists r, bytes = w ++ r) -> w <> [] -> lcs_ok bytes cs ->
  lcand cs w (snd m) (fst m) ->
  (forall x c, lcand cs w x c -> fst m <= c) ->
  exists xs, l_optimal ts xs w /\ l_seg_cost e xs = fst m.
Proof.
  intros Hcs (rest & Hb) Hwne (_ & Hcok) (y & prev & Hy & Hs & Hp & Hc) Hmin.
  assert (Hfirst : forall k, k <= length w -> firstn k bytes = firstn k w).
  { intros k Hk. rewrite Hb, firstn_app. replace (k - length w) with 0 by lia.
    rewrite firstn_O, app_nil_r; reflexivity. }
  destruct (Hcok _ _ Hp) as ((xs & (Hseg & Hopt) & Hlen) & _).
  rewrite Hfirst in Hseg by lia.
  exists (xs ++ [snd m]). split; [|rewrite l_seg_cost_snoc; lia].
  split.
  - rewrite (firstn_suffix _ _ Hs). apply l_seg_snoc; assumption.
  - intros qs Hqs. fold e. rewrite l_seg_cost_snoc, Hlen, <- Hc.
    destruct qs as [|q0 qs0] using rev_ind.
    { inversion Hqs; congruence. }
    clear IHqs0. apply l_seg_app_inv in Hqs as (w1 & x & Ew & Hq1 & Hq2).
    apply l_seg_single in Hq2. rewrite l_seg_cost_snoc.
    pose proof (piece_nonempty _ _ Hq2) as Hxl.
    assert (Hxl' : 0 < length x) by (destruct x; [congruence|cbn; lia]).
    assert (Hlw : length w = length w1 + length x) by (rewrite Ew, app_length; reflexivity).
    destruct (nth_error cs (length w - length x)) as [pj|] eqn:Epj; [|apply nth_error_None in Epj; lia].
    assert (Hcj : lcand cs w q0 (fst pj + l_piece_cost e q0)).
    { exists x, pj. repeat split; auto. exists w1; exact Ew. }
    apply Hmin in Hcj.
    destruct (Hcok _ _ Epj) as ((psj & (_ & Hoptj) & Hlenj) & _).
    specialize (Hoptj qs0). rewrite Hfirst in Hoptj by lia.
    replace (firstn (length w - length x) w) with w1 in Hoptj.
    + specialize (Hoptj Hq1). fold e in Hoptj. lia.
    + rewrite Hlw. replace (length w1 + length x - length x) with (length w1) by lia.
      rewrite Ew, firstn_app, firstn_all, Nat.sub_diag, app_nil_r; reflexivity.
Qed.

Lemma l_scan_best cs w x : length cs = length w -> w <> [] -> l_longest strs (length w) w x ->
  exists r,
   match x with
   | LLit b' =>
       l <- checked_sub (length cs) 1 ;;
       prev <- idx cs l ;;
       Ret (fst prev + literal_cost e, LLit b')
   | LTok k =>
       t <- idx (l_tokens (lz_set tk)) k ;;
       l <- checked_sub (length cs) (length (lt_string t)) ;;
       prev <- idx cs l ;;
       suf <- idx (lz_suffixes tk) k ;;
       l_chain (length cs) tk (literal_cost e) cs suf (fst prev + 1, LTok k)
   | LNone => Panic
   end = Ret r /\ lbest cs w (length w) r.
Proof.
  intros Hcs Hw Hl. assert (Hwl : 0 < length w) by (destruct w; [congruence|cbn; lia]).
  destruct x as [i|b|].
  - destruct Hl as (y & Hy & Hys & Hlen & Hmax). rewrite (ltk_set _ _ Htk).
    assert (Ht : exists t, nth_error (l_tokens ts) i = Some t /\ lt_string t = y).
    { unfold strs, l_strings in Hy. rewrite nth_error_map in Hy.
      destruct (nth_error (l_tokens ts) i) as [t|]; [|discriminate]. cbn in Hy. injection Hy as <-. eauto. }
    destruct Ht as (t & Ht & Es). unfold idx at 1. rewrite Ht. cbn [unwrap bind]. rewrite Es.
    assert (Hyl : 0 < length y).
    { apply nth_error_In in Hy. destruct y; [contradiction|cbn; lia]. }
    rewrite checked_sub_le by lia. cbn [bind].
    destruct (nth_error cs (length cs - length y)) as [prev|] eqn:Ep; [|apply nth_error_None in Ep; lia].
    unfold idx at 1. rewrite Ep. cbn [unwrap bind].
    destruct (ltk_suffix _ _ Htk i y Hy) as (sx & Hsx & Hsl).
    unfold idx at 1. rewrite Hsx. cbn [unwrap bind].
    assert (Hc : lcand cs w (LTok i) (fst prev + 1)) by (apply (lcand_tok cs w i y); auto; congruence).
    destruct (l_chain_spec cs w Hcs (length cs) (length y - 1) sx (fst prev + 1, LTok i)) as (r & Hr & Hcase);
      [lia|lia|apply (l_longest_widen strs _ y); auto; lia|].
    exists r. split; [exact Hr|].
    assert (Hlong : forall x' y' c, l_piece_string ts x' = Some y' -> length y' <= length w -> lcand cs w x' c ->
       ~ length y' <= length y - 1 -> fst prev + 1 <= c /\ length y' <= length y).
    { intros x' y' c Hy' Hl' Hc' Hgt. eapply same_length_cand; eauto. }
    destruct Hcase as [(-> & Hall)|(Hlt & y1 & Hy1 & Hl1 & Hc1 & Hall)]; cbn [fst snd] in *.
    + exists y. cbn [fst snd]. split; [exact Hy|]. split; [exact Hlen|]. split; [exact Hc|].
      intros x' y' c Hy' Hl' Hc'. destruct (Nat.le_gt_cases (length y') (length y - 1)) as [Hle|Hgt].
      * split; [exact (Hall x' y' c Hy' Hle Hc')|lia].
      * destruct (Hlong x' y' c Hy' Hl' Hc' ltac:(lia)). split; [assumption|auto].
    + exists y1. split; [exact Hy1|]. split; [lia|]. split; [exact Hc1|].
      intros x' y' c Hy' Hl' Hc'. destruct (Nat.le_gt_cases (length y') (length y - 1)) as [Hle|Hgt].
      * exact (Hall x' y' c Hy' Hle Hc').
      * destruct (Hlong x' y' c Hy' Hl' Hc' ltac:(lia)). split; [lia|]. intros ->. lia.
  - destruct Hl as (Hp & Hb & Hno). rewrite checked_sub_le by lia. cbn [bind].
    destruct (nth_error cs (length cs - 1)) as [prev|] eqn:Ep; [|apply nth_error_None in Ep; lia].
    unfold idx. rewrite Ep. cbn [unwrap bind]. eexists. split; [reflexivity|].
    exists [b]. cbn [fst snd]. split; [reflexivity|]. split; [cbn; lia|]. split.
    + exists [b], prev. cbn. rewrite <- Hcs. auto.
    + intros x' y' c Hy' Hl' (y2 & prev2 & Hy2 & Hs2 & Hp2 & ->). rewrite Hy' in Hy2. injection Hy2 as <-.
      destruct x' as [i'|b'|]; [| |discriminate].
      * exfalso. apply (Hno y'); auto. eapply nth_error_In; exact Hy'.
      * cbn in Hy'. injection Hy' as <-. cbn in Hp2. rewrite <- Hcs, Ep in Hp2. injection Hp2 as <-. cbn. lia.
  - cbn in Hl. lia.
Qed.

Lemma l_scan_step bytes w i cs b :
  length cs = S (length w) -> (exists r, bytes = w ++ b :: r) -> lcs_ok bytes cs -> l_at w i ->
  exists j cs', l_scan_byte tk (i, cs) b = Ret (j, cs') /\
    length cs' = S (length (w ++ [b])) /\ lcs_ok bytes cs' /\ l_at (w ++ [b]) j.
Proof.
  intros Hlen (rest & Hb) Hcok Hat.
  destruct (l_at_step w i b Hat) as (st & j & st' & Hst & Hj & Hst' & Hne & Hat').
  unfold l_scan_byte. unfold idx at 1. rewrite Hst; cbn [unwrap bind].
  unfold idx at 1. rewrite Hj; cbn [unwrap bind].
  unfold idx at 1. rewrite Hst'; cbn [unwrap bind].
  rewrite (ltk_set _ _ Htk). pose proof (l_at_longest _ _ _ Hat' Hst' Hne) as Hl.
  assert (Hlw : length (w ++ [b]) = S (length w)) by (rewrite app_length; cbn; lia).
  assert (Hcs : length cs = length (w ++ [b])) by lia.
  assert (Hwne : w ++ [b] <> []) by (destruct w; discriminate).
  destruct (l_scan_best cs (w ++ [b]) (lss_tok st') Hcs Hwne Hl) as (r & Hr & yr & Hyr & Hlr & Hc & Hbest).
  assert (Hmin : forall x' c, lcand cs (w ++ [b]) x' c -> fst r <= c).
  { intros x' c Hc'. pose proof Hc' as (y' & p' & Hy' & Hs' & _). apply (Hbest x' y' c Hy'); [apply suffix_length; exact Hs'|exact Hc']. }
  rewrite (ltk_set _ _ Htk) in Hr. unfold e in Hr. rewrite Hr. cbn [bind].
  exists j, (cs ++ [r]). split; [reflexivity|]. split; [rewrite app_length; cbn; lia|].
  split; [|exact Hat'].
  assert (Hfull : firstn (length cs) bytes = w ++ [b]).
  { rewrite Hcs, Hb. change (b :: rest) with ([b] ++ rest). rewrite app_assoc, firstn_app, firstn_all,
      Nat.sub_diag, app_nil_r; reflexivity. }
  pose proof Hcok as ((x0 & Hc0) & Hcok'). split.
  - exists x0. rewrite nth_error_app1; [exact Hc0|]. lia.
  - intros k' c' Hc'. destruct (Nat.lt_ge_cases k' (length cs)) as [Hlt|Hge].
    + rewrite nth_error_app1 in Hc' by exact Hlt.
      destruct (Hcok' _ _ Hc') as (H1 & H2). split; [exact H1|].
      intros Hk'. destruct (H2 Hk') as (y & prev & Hy & Hs & Hprev & Hcost & Hlong).
      exists y, prev. split; [exact Hy|]. split; [exact Hs|]. split; [rewrite nth_error_app1; [exact Hprev|]; apply nth_error_Some; congruence|].
      split; [exact Hcost|]. intros x' y' prev' Hy' Hs' Hp'. apply Hlong; auto. rewrite nth_error_app1 in Hp'; [exact Hp'|lia].
    + rewrite nth_error_app2 in Hc' by exact Hge.
      destruct (k' - length cs) as [|d] eqn:Ed; [|destruct d; discriminate].
      injection Hc' as <-. assert (k' = length cs) as -> by lia.
      rewrite Hfull. split.
      * apply (lcand_optimal bytes cs (w ++ [b]) r); auto.
        exists rest. rewrite Hb, <- app_assoc; reflexivity.
      * intros _. destruct Hc as (y & prev & Hy & Hs & Hprev & Hcost). rewrite Hyr in Hy. injection Hy as <-.
        exists yr, prev. split; [exact Hyr|]. split; [exact Hs|].
        split; [rewrite Hcs, nth_error_app1; [exact Hprev|]; apply nth_error_Some; congruence|].
        split; [exact Hcost|]. intros x' y' prev' Hy' Hs' Hp' Hc1.
        pose proof (suffix_length _ _ Hs') as Hl'. pose proof (piece_nonempty _ _ Hy') as Hne'.
        assert (0 < length y') by (destruct y'; [congruence|cbn; lia]).
        rewrite nth_error_app1 in Hp' by lia. rewrite Hcs in Hp'.
        apply (Hbest x' y' (fst r) Hy' Hl'); [|reflexivity]. exists y', prev'. auto.
Qed.

Lemma l_scan_all bytes :
  exists j cs, mfold (l_scan_byte tk) bytes (0, [(0, LNone)]) = Ret (j, cs) /\
    length cs = S (length bytes) /\ lcs_ok bytes cs.
Proof.
  assert (H : forall rest w i cs, bytes = w ++ rest -> length cs = S (length w) ->
            lcs_ok bytes cs -> l_at w i ->
            exists j cs', mfold (l_scan_byte tk) rest (i, cs) = Ret (j, cs') /\
              length cs' = S (length bytes) /\ lcs_ok bytes cs').
  { induction rest as [|b rest IH]; intros w i cs Hb Hlen Hcok Hat; cbn [mfold].
    - rewrite app_nil_r in Hb. subst w. eauto.
    - destruct (l_scan_step bytes w i cs b Hlen (ex_intro _ rest Hb) Hcok Hat)
        as (j & cs' & -> & Hlen' & Hok' & Hat'). cbn [bind].
      apply (IH (w ++ [b])); auto. rewrite <- app_assoc; exact Hb. }
  apply (H bytes []); auto.
  - split.
    + exists LNone; reflexivity.
    + intros [|k] c Hc; [|destruct k; discriminate]. injection Hc as <-. split; [|lia].
      exists []. split; [|reflexivity]. split; [constructor|]. intros; cbn; lia.
  - apply l_at_0.
Qed.

(** ** The back-trace *)
Definition next_tail (x : tidx) : list tidx := match x with LNone => [] | _ => [x] end.

Lemma l_adj_snoc2 xs i j : l_adj (xs ++ [LTok i; LTok j]) = l_adj (xs ++ [LTok i]) ++ [(i, j)].
Proof.
  induction xs as [|x xs IH]; cbn [l_adj app]; [reflexivity|]. rewrite IH.
  destruct x as [k|b|]; [|reflexivity|reflexivity].
  destruct xs as [|x' xs]; cbn [app]; [reflexivity|]. destruct x'; reflexivity.
Qed.

Lemma l_adj_snoc_lit_next xs b x : l_adj (xs ++ [LLit b; x]) = l_adj (xs ++ [LLit b]).
Proof.
  induction xs as [|y xs IH]; cbn [l_adj app].
  - destruct x; reflexivity.
  - rewrite IH. destruct y as [k|c|]; [|reflexivity|reflexivity].
    destruct xs as [|x' xs]; cbn [app]; [reflexivity|]. destruct x'; reflexivity.
Qed.

Lemma l_adj_snoc_tok_lit xs i b : l_adj (xs ++ [LTok i; LLit b]) = l_adj (xs ++ [LTok i]).
Proof.
  induction xs as [|y xs IH]; cbn [l_adj app]; [reflexivity|].
  rewrite IH. destruct y as [k|c|]; [|reflexivity|reflexivity].
  destruct xs as [|x' xs]; cbn [app]; [reflexivity|]. destruct x'; reflexivity.
Qed.

Lemma key_get_cons k0 c0 m k : key_get ((k0, c0) :: m) k = (if (k0 =? k)%N then c0 else 0) + key_get m k.
Proof. unfold key_get. cbn [filter fst]. destruct (k0 =? k)%N; reflexivity. Qed.

Lemma key_get_add m k c k' : key_get (key_add m k c) k' = key_get m k' + (if (k =? k')%N then c else 0).
Proof.
  induction m as [|[k0 c0] m IH]; cbn [key_add].
  - rewrite key_get_cons. apply Nat.add_comm.
  - destruct (k =? k0)%N eqn:E; rewrite !key_get_cons.
    + apply N.eqb_eq in E as <-. destruct (k =? k')%N; lia.
    + rewrite IH. lia.
Qed.

Lemma key_add_keys m k c x : In x (map fst (key_add m k c)) <-> In x (map fst m) \/ x = k.
Proof.
  induction m as [|[k0 c0] m IH]; cbn [key_add].
  - cbn. intuition.
  - destruct (k =? k0)%N eqn:E; cbn.
    + apply N.eqb_eq in E as <-. intuition.
    + rewrite IH. intuition.
Qed.

Lemma key_add_nodup m k c : NoDup (map fst m) -> NoDup (map fst (key_add m k c)).
Proof.
  induction m as [|[k0 c0] m IH]; cbn [key_add]; intros H.
  - cbn. constructor; [auto|constructor].
  - inversion H as [|? ? Hx1 Hnd]; subst. destruct (k =? k0)%N eqn:E; cbn.
    + exact H.
    + constructor; [|apply IH; exact Hnd]. rewrite key_add_keys. intros [Hk| ->]; [contradiction|].
      rewrite N.eqb_refl in E. discriminate.
Qed.

Lemma key_add_pos m k c : 0 < c -> (forall x d, In (x, d) m -> 0 < d) -> forall x d, In (x, d) (key_add m k c) -> 0 < d.
Proof.
  intros Hc Hm. induction m as [|[k0 c0] m IH]; intros x d; cbn [key_add].
  - intros [E|[]]. injection E as <- <-. exact Hc.
  - destruct (k =? k0)%N.
    + intros [E|H]; [injection E as <- <-; lia|]. eapply Hm. right; exact H.
    + intros [E|H]; [injection E as <- <-; eapply Hm; left; reflexivity|].
      eapply IH; [|exact H]. intros y dd Hy. eapply Hm; right; exact Hy.
Qed.

(** [s'] is [s] with one more text counted. *)
Record l_counted (ps : bool) (xs next : list tidx) (s s' : lstats) : Prop := {
  lc_cost : ls_lit_cost s' = ls_lit_cost s;
  lc_tl : length (ls_tokens s') = length (ls_tokens s);
  lc_t : forall i, nth i (ls_tokens s') 0 = nth i (ls_tokens s) 0 + count_occ tidx_eq_dec xs (LTok i);
  lc_ll : length (ls_literals s') = length (ls_literals s);
  lc_l : forall b, nth (b2n b) (ls_literals s') 0 = nth (b2n b) (ls_literals s) 0 + count_occ tidx_eq_dec xs (LLit b);
  lc_s : ls_scanned s' = ls_scanned s;
  lc_nd : NoDup (map fst (ls_pairs s)) -> NoDup (map fst (ls_pairs s'));
  lc_pos : (forall k c, In (k, c) (ls_pairs s) -> 0 < c) -> forall k c, In (k, c) (ls_pairs s') -> 0 < c;
  lc_p : forall k, key_get (ls_pairs s') k = key_get (ls_pairs s) k +
      (if ps then length (filter (has_key k) (l_adj (xs ++ next))) else 0)
}.

(** The pieces the back-trace passes. *)
Fixpoint l_back (fuel : nat) (cs : list dstate) (pos : nat) : list tidx :=
  match fuel with
  | O => []
  | S fuel' =>
      if pos =? 0 then []
      else match nth_error cs pos with
           | Some d =>
               match l_piece_string ts (snd d) with
               | Some y => l_back fuel' cs (pos - length y) ++ [snd d]
               | None => []
               end
           | None => []
           end
  end.
Definition l_cut (w : bstr) : list tidx :=
  match mfold (l_scan_byte tk) w (0, [(0, LNone)]) with
  | Ret (_, cs) => l_back (length w) cs (length w)
  | _ => []
  end.

Lemma l_walk_spec bytes cs : lcs_ok bytes cs ->
  forall pos c, pos <= length bytes -> nth_error cs pos = Some c ->
  exists xs, (forall fuel, pos <= fuel -> l_back fuel cs pos = xs) /\ l_canonical ts xs (firstn pos bytes) /\ l_seg_cost e xs = fst c /\
    forall ps fuel next s, pos <= fuel -> length (ls_tokens s) = length (l_tokens ts) -> length (ls_literals s) = 256 ->
    exists s', l_walk fuel tk ps cs pos next s = Ret s' /\ l_counted ps xs (next_tail next) s s'.
Proof.
  intros ((x0 & H0) & Hcok). induction pos as [pos IH] using (well_founded_induction lt_wf).
  intros c Hb Hc. destruct pos as [|pos'] eqn:Epos.
  - exists []. cbn [firstn]. split; [intros [|fuel] _; reflexivity|].
    split.
    { split; [split; [constructor|intros; cbn; lia]|]. intros a x b s y E. destruct a; discriminate. }
    rewrite H0 in Hc. injection Hc as <-. split; [reflexivity|].
    intros ps fuel next s _ _ _. exists s. split; [destruct fuel; reflexivity|].
    constructor; cbn; auto; try (intros; lia).
    intros k. destruct ps; [|lia]. destruct next; cbn; lia.
  - rewrite <- Epos in *. assert (Hpos : 0 < pos) by lia. clear Epos pos'.
    destruct (Hcok _ _ Hc) as ((os & (Hos & Homin) & Hoc) & Hback). destruct (Hback Hpos) as (y & prev & Hy & Hs & Hprev & Hcost & Hlong).
    pose proof (piece_nonempty _ _ Hy) as Hyne.
    assert (Hyl : 0 < length y) by (destruct y; [congruence|cbn; lia]).
    pose proof (suffix_length _ _ Hs) as Hyp. rewrite firstn_length_le in Hyp by exact Hb.
    destruct (IH (pos - length y) ltac:(lia) prev ltac:(lia) Hprev) as (xs & Hbk & Hseg & Hcx & Hwalk).
    exists (xs ++ [snd c]). split.
    { intros [|fuel] Hf; [lia|]. cbn [l_back]. rewrite (proj2 (Nat.eqb_neq pos 0)) by lia.
      rewrite Hc, Hy, Hbk by lia. reflexivity. }
    split.
    { assert (Efull : firstn (pos - length y) bytes ++ y = firstn pos bytes).
      { pose proof (firstn_suffix _ _ Hs) as E0. rewrite firstn_length_le in E0 by exact Hb.
        rewrite firstn_firstn, Nat.min_l in E0 by lia. symmetry. exact E0. }
      rewrite <- Efull.
      apply l_canonical_snoc; [exact Hseg|exact Hy| |]; rewrite Efull.
      - split; [rewrite <- Efull; apply l_seg_snoc; [apply Hseg|exact Hy]|].
        intros ys Hys. specialize (Homin ys Hys). fold e in Homin |- *. rewrite l_seg_cost_snoc. lia.
      - intros zs z y' (Hz & Hzmin) Hy'.
        apply l_seg_app_inv in Hz as (w1 & y2 & Ew & Hz1 & Hz2). apply l_seg_single in Hz2.
        rewrite Hy' in Hz2. injection Hz2 as <-.
        assert (Hyl' : length w1 + length y' = pos).
        { rewrite <- app_length, <- Ew, firstn_length_le by exact Hb. reflexivity. }
        assert (Hw1 : firstn (pos - length y') bytes = w1).
        { replace (pos - length y') with (Nat.min (length w1) pos) by lia. rewrite <- firstn_firstn, Ew, firstn_app, firstn_all, Nat.sub_diag.
          apply app_nil_r. }
        assert (Hlc : pos - length y' < length cs).
        { assert (Hp1 : nth_error cs pos <> None) by congruence. apply nth_error_Some in Hp1. lia. }
        destruct (nth_error cs (pos - length y')) as [prev'|] eqn:Ep'; [|apply nth_error_None in Ep'; lia].
        apply (Hlong z y' prev' Hy'); [exists w1; exact Ew|exact Ep'|].
        destruct (Hcok _ _ Ep') as ((os' & (Hos' & Homin') & Hoc') & _). rewrite Hw1 in Hos', Homin'.
        specialize (Homin' zs Hz1). fold e in Homin'.
        assert (H1 : l_seg_cost e os <= l_seg_cost e (os' ++ [z])).
        { apply Homin. rewrite Ew. apply l_seg_snoc; [exact Hos'|exact Hy']. }
        specialize (Hzmin os Hos). fold e in Hzmin. rewrite l_seg_cost_snoc in H1, Hzmin. lia. }
    split; [rewrite l_seg_cost_snoc; lia|].
    intros ps fuel next s Hf Htl Hll. destruct fuel as [|fuel]; [lia|].
    cbn [l_walk]. replace (pos =? 0) with false by (symmetry; apply Nat.eqb_neq; lia).
    unfold idx at 1. rewrite Hc. cbn [unwrap bind].
    destruct (snd c) as [i|b|] eqn:Esc; [| |discriminate].
    + assert (Ht : exists t, nth_error (l_tokens ts) i = Some t /\ lt_string t = y).
      { cbn in Hy. unfold l_strings in Hy. rewrite nth_error_map in Hy.
        destruct (nth_error (l_tokens ts) i) as [t|]; [|discriminate]. cbn in Hy. injection Hy as <-. eauto. }
      destruct Ht as (t & Ht & Es).
      assert (Hi : i < length (ls_tokens s)) by (rewrite Htl; apply nth_error_Some; congruence).
      unfold idx_upd at 1. rewrite (proj2 (Nat.ltb_lt _ _) Hi). cbn [bind].
      rewrite (ltk_set _ _ Htk). unfold idx at 1. rewrite Ht. cbn [unwrap bind]. rewrite Es.
      rewrite checked_sub_le by lia. cbn [bind].
      match goal with |- context [l_walk fuel tk ps cs (pos - length y) (LTok i) ?s1] =>
        destruct (Hwalk ps fuel (LTok i) s1) as (s' & Hw & Hcnt) end;
        [lia|cbn; rewrite upd_length; exact Htl|exact Hll|].
      exists s'. split; [exact Hw|]. destruct Hcnt as [C1 C2 C3 C4 C5 C6 C7 C8 C9]. cbn in *.
      constructor.
      * exact C1.
      * rewrite C2, upd_length. reflexivity.
      * intros k. rewrite C3, nth_upd by exact Hi. rewrite count_occ_app. cbn.
        destruct (tidx_eq_dec (LTok i) (LTok k)) as [E|E]; destruct (Nat.eqb_spec k i) as [E'|E'].
        { subst k. clear. lia. }
        { exfalso. apply E'. congruence. }
        { exfalso. apply E. congruence. }
        { clear. lia. }
      * exact C4.
      * intros b. rewrite C5, count_occ_app. cbn.
        destruct (tidx_eq_dec (LTok i) (LLit b)) as [E|E]; [discriminate|lia].
      * exact C6.
      * intros Hnd. apply C7. destruct ps; [|exact Hnd]. destruct next; try exact Hnd. apply key_add_nodup; exact Hnd.
      * intros Hp. apply C8. destruct ps; [|exact Hp]. destruct next; try exact Hp. apply key_add_pos; [lia|exact Hp].
      * intros k. rewrite C9. destruct ps; [|reflexivity].
        rewrite <- app_assoc. cbn [app]. destruct next as [j|b|]; cbn [next_tail].
        -- change (key_get (key_add (ls_pairs s) (pair_key i j) 1) k + length (filter (has_key k) (l_adj (xs ++ [LTok i]))) =
                   key_get (ls_pairs s) k + length (filter (has_key k) (l_adj (xs ++ [LTok i; LTok j])))).
           rewrite l_adj_snoc2, filter_app, app_length, key_get_add.
           assert (Hf1 : length (filter (has_key k) [(i, j)]) = if (pair_key i j =? k)%N then 1 else 0).
           { cbn [filter]. change (has_key k (i, j)) with (pair_key i j =? k)%N. destruct (pair_key i j =? k)%N; reflexivity. }
           rewrite Hf1. lia.
        -- rewrite l_adj_snoc_tok_lit. reflexivity.
        -- reflexivity.
    + cbn in Hy. injection Hy as <-. cbn [length] in *.
      assert (Hi : b2n b < length (ls_literals s)) by (rewrite Hll; apply b2n_lt).
      unfold idx_upd at 1. rewrite (proj2 (Nat.ltb_lt _ _) Hi). cbn [bind].
      rewrite checked_sub_le by lia. cbn [bind].
      match goal with |- context [l_walk fuel tk ps cs (pos - 1) (LLit b) ?s1] =>
        destruct (Hwalk ps fuel (LLit b) s1) as (s' & Hw & Hcnt) end;
        [lia|exact Htl|cbn; rewrite upd_length; exact Hll|].
      exists s'. split; [exact Hw|]. destruct Hcnt as [C1 C2 C3 C4 C5 C6 C7 C8 C9]. cbn in *.
      constructor.
      * exact C1.
      * exact C2.
      * intros k. rewrite C3, count_occ_app. cbn.
        destruct (tidx_eq_dec (LLit b) (LTok k)) as [E|E]; [discriminate|lia].
      * rewrite C4, upd_length. reflexivity.
      * intros d. rewrite C5, nth_upd by exact Hi. rewrite count_occ_app. cbn.
        destruct (tidx_eq_dec (LLit b) (LLit d)) as [E|E]; destruct (Nat.eqb_spec (b2n d) (b2n b)) as [E'|E']; try lia.
        -- exfalso. apply E'. congruence.
        -- exfalso. apply E. f_equal. symmetry. apply b2n_inj. exact E'.
      * exact C6.
      * exact C7.
      * exact C8.
      * intros k. rewrite C9. destruct ps; [|reflexivity].
        rewrite <- app_assoc. cbn [app]. f_equal. f_equal. f_equal.
        destruct next; cbn [next_tail]; [|rewrite ?l_adj_snoc_lit_next; reflexivity|reflexivity].
        symmetry. apply l_adj_snoc_lit_next.
Qed.

Lemma l_process_slice_one w :
  l_canonical ts (l_cut w) w /\
  forall ps s, length (ls_tokens s) = length (l_tokens ts) -> length (ls_literals s) = 256 ->
  exists s', l_process_slice tk ps w s = Ret s' /\
    l_counted ps (l_cut w) [] (mkLstats (ls_lit_cost s) (ls_tokens s) (ls_pairs s) (ls_literals s) (ls_scanned s + length w)) s'.
Proof.
  destruct (l_scan_all w) as (j & cs & Hscan & Hlen & Hcok).
  destruct (nth_error cs (length w)) as [c|] eqn:Ec; [|apply nth_error_None in Ec; lia].
  destruct (l_walk_spec w cs Hcok (length w) c (le_n _) Ec) as (xs & Hback & Hseg & Hcost & Hwalk).
  assert (Ecut : l_cut w = xs).
  { unfold l_cut. rewrite Hscan. apply Hback. lia. }
  rewrite Ecut. split.
  - rewrite firstn_all in Hseg. exact Hseg.
  - intros ps s Htl Hll. unfold l_process_slice. rewrite Hscan. cbn [bind].
    rewrite Hlen. rewrite checked_sub_le by lia. cbn [bind].
    replace (S (length w) - 1) with (length w) by lia.
    destruct (Hwalk ps (length w) LNone
       (mkLstats (ls_lit_cost s) (ls_tokens s) (ls_pairs s) (ls_literals s) (ls_scanned s + length w))) as (s' & Hw & Hc);
      [lia|exact Htl|exact Hll|].
    exists s'. split; [exact Hw|exact Hc].
Qed.
End Scan.
