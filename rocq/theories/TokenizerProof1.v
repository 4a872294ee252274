(** * Construction of the tokenizer: what [tokenizer_new] builds, and when. *)
From Verif Require Import Base BaseLemmas TokenSetModel TokenizerModel TokSpec.

(** ** Suffixes *)
Definition suffix_of (x y : bstr) : Prop := exists p, y = p ++ x.

Lemma suffix_refl x : suffix_of x x.
Proof. exists []; reflexivity. Qed.

Lemma suffix_trans x y z : suffix_of x y -> suffix_of y z -> suffix_of x z.
Proof. intros (p & ->) (q & ->); exists (q ++ p); rewrite app_assoc; reflexivity. Qed.

Lemma suffix_length x y : suffix_of x y -> length x <= length y.
Proof. intros (p & ->); rewrite app_length; lia. Qed.

Lemma suffix_nil x : suffix_of x [] -> x = [].
Proof. intros (p & H); symmetry in H; apply app_eq_nil in H; tauto. Qed.

Lemma suffix_skipn k y : suffix_of (skipn k y) y.
Proof. exists (firstn k y); rewrite firstn_skipn; reflexivity. Qed.

Lemma suffix_skipn_inv x y : suffix_of x y -> x = skipn (length y - length x) y.
Proof.
  intros (p & ->). rewrite app_length.
  replace (length p + length x - length x) with (length p) by lia.
  rewrite skipn_app, skipn_all, Nat.sub_diag; reflexivity.
Qed.

Lemma suffix_both x y w :
  suffix_of x w -> suffix_of y w -> length x <= length y -> suffix_of x y.
Proof.
  intros Hx Hy Hl.
  pose proof (suffix_length _ _ Hy) as Hyw.
  pose proof (suffix_skipn_inv _ _ Hx) as Ex.
  pose proof (suffix_skipn_inv _ _ Hy) as Ey.
  replace (length w - length x) with ((length y - length x) + (length w - length y)) in Ex by lia.
  rewrite <- skipn_skipn, <- Ey in Ex. rewrite Ex. apply suffix_skipn.
Qed.

Lemma suffix_eq x y w :
  suffix_of x w -> suffix_of y w -> length x = length y -> x = y.
Proof.
  intros Hx Hy Hl. rewrite (suffix_skipn_inv _ _ Hx), (suffix_skipn_inv _ _ Hy), Hl; reflexivity.
Qed.

Lemma suffix_snoc x w b : suffix_of x (w ++ [b]) -> x <> [] ->
  exists y, x = y ++ [b] /\ suffix_of y w.
Proof.
  intros (p & H) Hne. destruct (exists_last Hne) as (y & c & ->).
  rewrite app_assoc in H. apply app_inj_tail in H as [-> ->].
  exists y; split; [reflexivity|exists p; reflexivity].
Qed.

Lemma suffix_snoc_mono y w b : suffix_of y w -> suffix_of (y ++ [b]) (w ++ [b]).
Proof. intros (p & ->). exists p; rewrite app_assoc; reflexivity. Qed.

(** [longest L n s i]: [i] is the position in [L] of the longest non-empty
    suffix of [s], of length at most [n], that is in [L]; 0 if there is none. *)
Definition longest (L : list bstr) (n : nat) (s : bstr) (i : nat) : Prop :=
  (i = 0 /\ forall x, suffix_of x s -> x <> [] -> length x <= n -> ~ In x L) \/
  (0 < i /\ exists x, nth_error L i = Some x /\ x <> [] /\ suffix_of x s /\ length x <= n /\
     forall y, suffix_of y s -> In y L -> length y <= n -> suffix_of y x).

Definition find_longest (m : smap nat) (a : nat) (s : bstr) : nat :=
  match find_map (fun start => sget m (skipn start s)) (seq a (length s - a)) with
  | Some i => i
  | None => 0
  end.

Lemma find_longest_spec m L a s :
  indexes m L -> nth_error L 0 = Some [] -> longest L (length s - a) s (find_longest m a s).
Proof.
  intros Hm H0. unfold find_longest.
  destruct (find_map _ _) as [i|] eqn:E.
  - apply find_map_seq_Some in E as (k & Hk & Hi & Hn). right.
    apply Hm in Hi.
    assert (Hl : length (skipn k s) = length s - k) by apply skipn_length.
    assert (Hne : skipn k s <> []).
    { intros E; rewrite E in Hl; cbn in Hl. lia. }
    split.
    + destruct i; [|lia]. congruence.
    + exists (skipn k s). split; [exact Hi|]. split; [exact Hne|].
      split; [apply suffix_skipn|]. split; [lia|].
      intros y Hy Hin Hly.
      apply (suffix_both y (skipn k s) s Hy (suffix_skipn k s)).
      rewrite Hl. pose proof (suffix_length _ _ Hy).
      destruct (Nat.le_gt_cases (length y) (length s - k)) as [|Hgt]; [assumption|].
      exfalso. specialize (Hn (length s - length y)).
      rewrite <- (suffix_skipn_inv _ _ Hy) in Hn.
      apply (indexes_In _ _ _ Hm) in Hin as (j & Hj). rewrite Hn in Hj; [discriminate|lia].
  - left. split; [reflexivity|]. rewrite find_map_seq_None in E.
    intros x Hx Hne Hl Hin. pose proof (suffix_length _ _ Hx) as Hlx.
    assert (length x <> 0) by (destruct x; cbn; congruence).
    specialize (E (length s - length x)).
    rewrite <- (suffix_skipn_inv _ _ Hx) in E.
    apply (indexes_In _ _ _ Hm) in Hin as (j & Hj). rewrite E in Hj; [discriminate|lia].
Qed.

Lemma longest_pos L n s i x :
  longest L n s i -> suffix_of x s -> x <> [] -> length x <= n -> In x L -> 0 < i.
Proof. intros [(-> & H)|(H & _)] Hx Hne Hl Hin; [|exact H]. exfalso; eapply H; eauto. Qed.

(** ** Spans *)
Definition tok_span (p : nat * token) : list span :=
  match snd p with
  | Str s => [mkSpan (SToken (fst p)) s 0 1]
  | Ext _ => []
  end.

Definition seq_span (p : nat * sequence) : span :=
  mkSpan (SSequence (fst p)) (seq_string (snd p)) 0 (length (seq_tokens (snd p))).

Definition tok_spans (ts : tokenset) : list span :=
  flat_map tok_span (enum (tokens ts)).

Definition seq_spans (ts : tokenset) : list span :=
  map seq_span
      (enum (sequences ts)).

Definition raw_spans (ts : tokenset) : list span := tok_spans ts ++ seq_spans ts.

Definition ins_span (st : list span * smap nat) (sp : span) : outcome (list span * smap nat) :=
  if smem (snd st) (sp_string sp) then Panic
  else Ret (fst st ++ [sp], sinsert (snd st) (sp_string sp) (length (fst st))).

Lemma tok_loop l st :
  mfold add_token_span l st =
  mfold ins_span (flat_map tok_span l) st.
Proof.
  revert st; induction l as [|[i [s|n]] l IH]; intros [spans m]; cbn; [reflexivity| |apply IH].
  unfold ins_span at 1; cbn. destruct (smem m s); cbn; [reflexivity|apply IH].
Qed.

Lemma seq_loop l st :
  mfold add_seq_span l st =
  mfold ins_span (map seq_span l) st.
Proof.
  revert st; induction l as [|[i q] l IH]; intros [spans m]; cbn; [reflexivity|].
  unfold ins_span at 1; cbn. destruct (smem m (seq_string q)); cbn; [reflexivity|apply IH].
Qed.

Lemma strings_raw_spans ts : map sp_string (raw_spans ts) = strings ts.
Proof.
  unfold raw_spans, strings, tok_spans, seq_spans, enum. rewrite map_app. f_equal.
  - generalize 0. induction (tokens ts) as [|[s|n] l IH]; intros k; cbn; [reflexivity| |apply IH].
    f_equal; apply IH.
  - generalize 0. induction (sequences ts) as [|q l IH]; intros k; cbn; [reflexivity|].
    f_equal; apply IH.
Qed.

Lemma ins_loop l : forall spans m,
  indexes m (map sp_string spans) ->
  (NoDup (map sp_string (spans ++ l)) /\
   exists m', mfold ins_span l (spans, m) = Ret (spans ++ l, m') /\
              indexes m' (map sp_string (spans ++ l)))
  \/ (~ NoDup (map sp_string (spans ++ l)) /\ mfold ins_span l (spans, m) = Panic).
Proof.
  induction l as [|sp l IH]; intros spans m Hm.
  - left. rewrite app_nil_r. split; [eapply indexes_NoDup; exact Hm|]. exists m; auto.
  - cbn [mfold]. unfold ins_span at 1 3; cbn [fst snd].
    destruct (smem m (sp_string sp)) eqn:E.
    + right. split; [|reflexivity].
      apply smem_true in E. apply (indexes_In _ _ _ Hm) in E.
      rewrite map_app; cbn. intros Hnd. apply NoDup_remove_2 in Hnd.
      apply Hnd. apply in_or_app; left; exact E.
    + apply smem_false in E. rewrite (indexes_None _ _ _ Hm) in E. cbn [bind].
      specialize (IH (spans ++ [sp]) (sinsert m (sp_string sp) (length spans))).
      rewrite <- app_assoc in IH. cbn in IH. apply IH.
      rewrite map_app; cbn. rewrite <- (map_length sp_string spans).
      apply indexes_snoc; assumption.
Qed.

Definition span0 := mkSpan SNone [] 0 0.

Lemma create_spans_spec ts :
  (NoDup ([] :: strings ts) /\
   exists m, create_spans ts = Ret (span0 :: map (set_suffix m) (raw_spans ts), m) /\
             indexes m ([] :: strings ts))
  \/ (~ NoDup ([] :: strings ts) /\ create_spans ts = Panic).
Proof.
  unfold create_spans. rewrite tok_loop.
  assert (Hm0 : indexes (sinsert [] [] 0) (map sp_string [span0])).
  { cbn. intros s i. rewrite sget_sinsert. cbn.
    destruct (bstr_eqb_spec s []) as [->|Hne].
    - split.
      + intros E; injection E as <-; reflexivity.
      + destruct i as [|[|i]]; cbn; intros E; congruence.
    - split; [discriminate|]. destruct i as [|[|i]]; cbn; intros E; congruence. }
  pose proof (ins_loop (raw_spans ts) [span0] _ Hm0) as Hraw.
  assert (Hsplit : forall st, mfold ins_span (raw_spans ts) st =
            bind (mfold ins_span (tok_spans ts) st) (mfold ins_span (seq_spans ts)))
    by (intros; apply mfold_app).
  rewrite Hsplit in Hraw. cbn [app map] in Hraw. rewrite strings_raw_spans in Hraw. cbn [sp_string span0] in Hraw.
  fold span0. fold (tok_spans ts).
  destruct Hraw as [(Hnd & m & E & Hm)|(Hnd & E)].
  - left. split; [exact Hnd|]. exists m. split; [|exact Hm].
    destruct (mfold ins_span (tok_spans ts) ([span0], sinsert [] [] 0)) as [st1| |]; cbn in E |- *;
      try discriminate.
    rewrite seq_loop. fold (seq_spans ts). rewrite E. cbn. reflexivity.
  - right. split; [exact Hnd|].
    destruct (mfold ins_span (tok_spans ts) ([span0], sinsert [] [] 0)) as [st1| |]; cbn in E |- *;
      try discriminate; [|reflexivity].
    rewrite seq_loop. fold (seq_spans ts). rewrite E. reflexivity.
Qed.

(** ** Pieces and spans *)
Definition piece_of (sp : span) : option piece :=
  match sp_content sp with
  | SNone => None
  | SToken i => Some (PTok i)
  | SSequence i => Some (PSeq i)
  end.

Definition span_good (ts : tokenset) (sp : span) : Prop :=
  exists p, piece_of sp = Some p /\ piece_string ts p = Some (sp_string sp) /\
            sp_cost sp = length (piece_tokens ts p).

Lemma raw_spans_good ts sp : In sp (raw_spans ts) -> span_good ts sp.
Proof.
  unfold raw_spans, tok_spans, seq_spans. rewrite in_app_iff, in_flat_map, in_map_iff.
  intros [([i t] & Hin & H)|([i q] & H & Hin)]; apply in_enum in Hin; cbn in H.
  - destruct t as [s|n]; [|destruct H]. destruct H as [<-|[]].
    exists (PTok i). cbn. rewrite Hin. auto.
  - subst sp. exists (PSeq i). cbn. rewrite Hin; auto.
Qed.

Lemma raw_spans_complete ts p s :
  piece_string ts p = Some s ->
  exists sp, In sp (raw_spans ts) /\ piece_of sp = Some p /\ sp_string sp = s.
Proof.
  unfold raw_spans, tok_spans, seq_spans.
  destruct p as [i|i]; cbn; intros H.
  - destruct (nth_error (tokens ts) i) as [[x|n]|] eqn:E; try discriminate.
    injection H as ->. exists (mkSpan (SToken i) s 0 1). split; [|auto].
    apply in_or_app; left. apply in_flat_map. exists (i, Str s).
    split; [apply in_enum; exact E|left; reflexivity].
  - destruct (nth_error (sequences ts) i) as [q|] eqn:E; try discriminate.
    injection H as <-. exists (mkSpan (SSequence i) (seq_string q) 0 (length (seq_tokens q))).
    split; [|auto]. apply in_or_app; right. apply in_map_iff. exists (i, q).
    split; [reflexivity|apply in_enum; exact E].
Qed.

Lemma in_strings ts s : In s (strings ts) <-> exists p, piece_string ts p = Some s.
Proof.
  rewrite <- strings_raw_spans. split.
  - intros H. apply in_map_iff in H as (sp & <- & Hin).
    destruct (raw_spans_good _ _ Hin) as (p & _ & H & _). eauto.
  - intros (p & H). destruct (raw_spans_complete _ _ _ H) as (sp & Hin & _ & <-).
    apply in_map; exact Hin.
Qed.

(** ** States *)
Definition state_good (D : list bstr) (st : suffix_state) : Prop :=
  (ss_suffix st = [] /\ ss_span st = 0) \/
  (ss_suffix st <> [] /\ 0 < ss_span st /\
   longest D (length (ss_suffix st)) (ss_suffix st) (ss_span st)).

Definition states_inv (D : list bstr) (st : list suffix_state * smap nat) : Prop :=
  indexes (snd st) (map ss_suffix (fst st)) /\
  nth_error (map ss_suffix (fst st)) 0 = Some [] /\
  Forall (state_good D) (fst st).

Lemma add_prefix_step D m st pref :
  indexes m D -> nth_error D 0 = Some [] -> states_inv D st -> pref <> [] ->
  (exists st', add_prefix_state m st pref = Ret st' /\ states_inv D st' /\
     forall x, In x (map ss_suffix (fst st')) <-> In x (map ss_suffix (fst st)) \/ x = pref)
  \/ (add_prefix_state m st pref = Panic /\
      forall x, suffix_of x pref -> x <> [] -> ~ In x D).
Proof.
  destruct st as [states sm]. intros Hm H0 (Hsm & Hs0 & Hg) Hne. cbn in *.
  destruct (smem sm pref) eqn:E.
  - left. exists (states, sm). split; [reflexivity|]. split; [repeat split; auto; apply Hsm|].
    intros x. split; [tauto|].
    intros [H| ->]; [exact H|]. apply smem_true in E. apply (indexes_In _ _ _ Hsm) in E; exact E.
  - apply smem_false in E. rewrite (indexes_None _ _ _ Hsm) in E.
    pose proof (find_longest_spec m D 0 pref Hm H0) as Hl. unfold find_longest in Hl.
    rewrite Nat.sub_0_r in Hl.
    set (i := match find_map _ (seq 0 (length pref)) with Some i => i | None => 0 end) in *.
    destruct i as [|i'] eqn:Ei.
    + right. split; [reflexivity|]. destruct Hl as [(_ & Hl)|(Hl & _)]; [|lia].
      intros x Hx Hxn. apply Hl; auto. apply suffix_length; exact Hx.
    + left. cbn. eexists; split; [reflexivity|]. split.
      * split; cbn.
        -- rewrite map_app; cbn. rewrite <- (map_length ss_suffix states).
           apply indexes_snoc; assumption.
        -- split.
           ++ destruct states; cbn in *; [discriminate|exact Hs0].
           ++ apply Forall_app; split; [exact Hg|]. constructor; [|constructor].
              right; cbn. split; [exact Hne|]. split; [lia|exact Hl].
      * intros x. cbn. rewrite map_app, in_app_iff; cbn. intuition.
Qed.

Lemma add_prefixes D m PL : indexes m D -> nth_error D 0 = Some [] -> ~ In [] PL ->
  forall st r, states_inv D st -> mfold (add_prefix_state m) PL st = Ret r ->
  states_inv D r /\
  forall x, In x (map ss_suffix (fst r)) <-> In x (map ss_suffix (fst st)) \/ In x PL.
Proof.
  intros Hm H0. induction PL as [|pref PL IH]; intros Hn st r Hst H; cbn in H.
  - injection H as <-. split; [exact Hst|]. cbn; tauto.
  - destruct (add_prefix_step D m st pref Hm H0 Hst) as [(st' & E & Hst' & Hin)|(E & _)].
    + intros ->; apply Hn; left; reflexivity.
    + rewrite E in H; cbn in H. destruct (IH ltac:(intros ?; apply Hn; right; assumption) _ _ Hst' H)
        as (Hr & Hinr).
      split; [exact Hr|]. intros x. rewrite Hinr, Hin; cbn. intuition.
    + rewrite E in H; discriminate.
Qed.

Lemma add_prefixes_total D m PL : indexes m D -> nth_error D 0 = Some [] -> ~ In [] PL ->
  (forall p, In p PL -> exists x, suffix_of x p /\ x <> [] /\ In x D) ->
  forall st, states_inv D st -> exists r, mfold (add_prefix_state m) PL st = Ret r.
Proof.
  intros Hm H0. induction PL as [|pref PL IH]; intros Hn Hx st Hst; cbn; [eauto|].
  destruct (add_prefix_step D m st pref Hm H0 Hst) as [(st' & E & Hst' & Hin)|(E & Hno)].
  - intros ->; apply Hn; left; reflexivity.
  - rewrite E; cbn. apply IH; [intros ?; apply Hn; right; assumption| |exact Hst'].
    intros p Hp; apply Hx; right; exact Hp.
  - destruct (Hx pref (or_introl eq_refl)) as (x & Hs & Hne & Hin).
    exfalso; eapply Hno; eauto.
Qed.

Definition prefixes (s : bstr) : list bstr := map (fun e => firstn e s) (seq 1 (length s)).

Lemma in_prefixes s x : In x (prefixes s) <-> x <> [] /\ exists r, s = x ++ r.
Proof.
  unfold prefixes. rewrite in_map_iff. split.
  - intros (e & <- & He). apply in_seq in He. split.
    + destruct s; cbn in He |- *; [lia|]. destruct e; [lia|]. discriminate.
    + exists (skipn e s). rewrite firstn_skipn; reflexivity.
  - intros (Hne & r & ->). exists (length x). split.
    + rewrite firstn_app, firstn_all, Nat.sub_diag, app_nil_r; reflexivity.
    + apply in_seq. rewrite app_length. destruct x; [congruence|cbn; lia].
Qed.

Lemma span_loop m spans st :
  mfold (add_span_states m) spans st =
  mfold (add_prefix_state m) (flat_map (fun sp => prefixes (sp_string sp)) spans) st.
Proof.
  revert st; induction spans as [|sp spans IH]; intros st; cbn; [reflexivity|].
  rewrite mfold_app. unfold add_span_states at 1. fold (prefixes (sp_string sp)).
  destruct (mfold _ (prefixes _) st); cbn; auto.
Qed.

(** ** What a built tokenizer looks like *)
Record tk_ok (ts : tokenset) (tk : tokenizer) : Prop := {
  tk_set : tk_token_set tk = ts;
  tk_nodup : NoDup ([] :: strings ts);
  tk_strs : map sp_string (tk_spans tk) = [] :: strings ts;
  tk_good : forall i sp, nth_error (tk_spans tk) i = Some sp -> 0 < i -> span_good ts sp;
  tk_complete : forall p s, piece_string ts p = Some s ->
      exists i sp, nth_error (tk_spans tk) i = Some sp /\ 0 < i /\
                   piece_of sp = Some p /\ sp_string sp = s;
  tk_suffix : forall i sp, nth_error (tk_spans tk) i = Some sp -> 0 < i ->
      longest ([] :: strings ts) (length (sp_string sp) - 1) (sp_string sp) (sp_suffix sp);
  tk_state0 : exists st, nth_error (tk_states tk) 0 = Some st /\ ss_suffix st = [];
  tk_nodup_states : NoDup (map ss_suffix (tk_states tk));
  tk_state_in : forall x, In x (map ss_suffix (tk_states tk)) <->
      x = [] \/ (x <> [] /\ exists r, In (x ++ r) (strings ts));
  tk_state_good : Forall (state_good ([] :: strings ts)) (tk_states tk);
  tk_next : forall st b, In st (tk_states tk) ->
      exists j st', nth_error (ss_next st) (b2n b) = Some j /\ 0 < j /\
        nth_error (tk_states tk) j = Some st' /\
        longest (map ss_suffix (tk_states tk)) (S (length (ss_suffix st)))
                (ss_suffix st ++ [b]) j
}.

Lemma states0_inv D : states_inv D ([mkState [] 0 []], sinsert [] [] 0).
Proof.
  split; [|split; [reflexivity|constructor; [left; auto|constructor]]].
  intros s i; cbn. split.
  - destruct (bstr_eqb_spec s []) as [->|Hne]; cbn; [|discriminate].
    intros E; injection E as <-; reflexivity.
  - destruct i as [|[|i]]; cbn; intros E; try discriminate.
    injection E as <-; reflexivity.
Qed.

Lemma next_state_spec sm L suffix b :
  indexes sm L -> nth_error L 0 = Some [] ->
  (exists j, next_state sm suffix b = Ret j /\ 0 < j /\
             longest L (S (length suffix)) (suffix ++ [b]) j)
  \/ (next_state sm suffix b = Panic /\
      forall x, suffix_of x (suffix ++ [b]) -> x <> [] -> ~ In x L).
Proof.
  intros Hm H0. pose proof (find_longest_spec sm L 0 (suffix ++ [b]) Hm H0) as Hl.
  unfold find_longest in Hl. rewrite Nat.sub_0_r in Hl. unfold next_state.
  set (i := match find_map _ _ with Some i => i | None => 0 end) in *.
  rewrite app_length in Hl; cbn in Hl. rewrite Nat.add_1_r in Hl.
  destruct i as [|i'] eqn:Ei.
  - right. split; [reflexivity|]. destruct Hl as [(_ & Hl)|(Hl & _)]; [|lia].
    intros x Hx Hne. apply Hl; auto. apply suffix_length in Hx.
    rewrite app_length in Hx; cbn in Hx; lia.
  - left. exists (S i'). split; [reflexivity|]. split; [lia|exact Hl].
Qed.

Lemma fill_next_strings sm states r :
  mmap (fill_next sm) states = Ret r ->
  map ss_suffix r = map ss_suffix states /\ map ss_span r = map ss_span states.
Proof.
  intros H; apply mmap_ret in H. induction H as [|st st' l l' H _ IH]; cbn; [auto|].
  unfold fill_next in H. apply bind_ret in H as (nx & _ & H). injection H as <-. cbn.
  destruct IH as [-> ->]; auto.
Qed.

Lemma tokenizer_new_ok ts tk : tokenizer_new ts = Ret tk -> tk_ok ts tk.
Proof.
  unfold tokenizer_new. intros H. apply bind_ret in H as ([spans m] & Hsp & H).
  destruct (create_spans_spec ts) as [(Hnd & m' & E & Hm)|(_ & E)]; [|congruence].
  rewrite E in Hsp. injection Hsp as <- <-.
  apply bind_ret in H as (states & Hst & H). injection H as <-.
  unfold create_suffix_states in Hst. apply bind_ret in Hst as ([states0 sm] & Hs0 & Hst).
  rewrite span_loop in Hs0.
  set (D := [] :: strings ts) in *.
  assert (Hspans : map sp_string (span0 :: map (set_suffix m') (raw_spans ts)) = D).
  { cbn. rewrite map_map; cbn. unfold D. rewrite <- strings_raw_spans. reflexivity. }
  assert (HPL : forall x,
    In x (flat_map (fun sp => prefixes (sp_string sp)) (span0 :: map (set_suffix m') (raw_spans ts)))
    <-> x <> [] /\ exists r, In (x ++ r) (strings ts)).
  { intros x. rewrite in_flat_map. split.
    - intros (sp & Hin & Hp). apply in_prefixes in Hp as (Hne & r & Er). split; [exact Hne|].
      exists r. rewrite <- Er. apply (in_map sp_string) in Hin. rewrite Hspans in Hin.
      destruct Hin as [Hin|Hin]; [|exact Hin].
      rewrite <- Hin in Er. symmetry in Er. apply app_eq_nil in Er. tauto.
    - intros (Hne & r & Hin). assert (Hin' : In (x ++ r) D) by (right; exact Hin).
      rewrite <- Hspans in Hin'. apply in_map_iff in Hin' as (sp & Es & Hsp).
      exists sp. split; [exact Hsp|]. rewrite Es. apply in_prefixes. eauto. }
  destruct (add_prefixes D m' _ Hm eq_refl
              ltac:(intros Hx; apply HPL in Hx; tauto) _ _ (states0_inv D) Hs0)
    as ((Hsm & Hs00 & Hg) & Hin). cbn [fst snd] in *.
  destruct (fill_next_strings _ _ _ Hst) as (Hsuf & Hspn).
  constructor; cbn [tk_token_set tk_spans tk_states].
  - reflexivity.
  - exact Hnd.
  - exact Hspans.
  - intros [|i] sp Hi Hpos; [lia|]. cbn in Hi. rewrite nth_error_map in Hi.
    destruct (nth_error (raw_spans ts) i) as [sp'|] eqn:Ei; [|discriminate].
    cbn in Hi; injection Hi as <-. apply nth_error_In in Ei.
    apply raw_spans_good in Ei as (p & Hp & Hs & Hc). exists p; auto.
  - intros p s Hp. destruct (raw_spans_complete _ _ _ Hp) as (sp & Hsp & Hpo & Hs).
    apply In_nth_error in Hsp as (i & Hi). exists (S i), (set_suffix m' sp).
    cbn. rewrite nth_error_map, Hi; cbn. repeat split; auto; lia.
  - intros [|i] sp Hi Hpos; [lia|]. cbn in Hi. rewrite nth_error_map in Hi.
    destruct (nth_error (raw_spans ts) i) as [sp'|] eqn:Ei; [|discriminate].
    cbn in Hi; injection Hi as <-. cbn.
    apply (find_longest_spec m' D 1 (sp_string sp') Hm eq_refl).
  - rewrite <- Hsuf, nth_error_map in Hs00.
    destruct (nth_error states 0) as [st|]; [|discriminate]. cbn in Hs00.
    exists st. split; congruence.
  - rewrite Hsuf. eapply indexes_NoDup; exact Hsm.
  - intros x. rewrite Hsuf, Hin, HPL. cbn. intuition congruence.
  - assert (Hgen : forall l l', map ss_suffix l = map ss_suffix l' -> map ss_span l = map ss_span l' ->
                        Forall (state_good D) l' -> Forall (state_good D) l).
    { clear. induction l as [|st l IH]; intros [|st' l'] H1 H2 HF; cbn in *; try discriminate; [constructor|].
      injection H1 as E1 H1. injection H2 as E2 H2. inversion HF; subst.
      constructor; [|eapply IH; eauto]. unfold state_good in *. rewrite E1, E2. assumption. }
    exact (Hgen _ _ Hsuf Hspn Hg).
  - intros st b Hst'. apply mmap_ret in Hst.
    apply In_nth_error in Hst' as (k & Hk).
    destruct (Forall2_nth_r _ _ _ Hst k st Hk) as (st0 & Hk0 & Hf).
    unfold fill_next in Hf. apply bind_ret in Hf as (nx & Hnx & Hf). injection Hf as <-. cbn.
    apply mmap_ret in Hnx.
    destruct (Forall2_nth _ _ _ Hnx _ _ (nth_error_all_bytes b)) as (j & Hj & Hnext).
    destruct (next_state_spec sm _ (ss_suffix st0) b Hsm Hs00) as [(j' & Ej & Hpos & Hl)|(Ej & _)];
      [|congruence].
    rewrite Hnext in Ej; injection Ej as <-.
    assert (Hlen : exists st', nth_error states j = Some st').
    { destruct Hl as [(-> & _)|(_ & x & Hx & _)]; [lia|].
      rewrite <- Hsuf, nth_error_map in Hx. destruct (nth_error states j); [eauto|discriminate]. }
    destruct Hlen as (st' & Hst'). exists j, st'. rewrite Hsuf. auto.
Qed.

(** ** C01, "only if" *)
Lemma tk_ok_usable ts tk : tk_ok ts tk -> usable ts.
Proof.
  intros H. pose proof (tk_nodup _ _ H) as Hnd. inversion Hnd as [|? ? Hnn Hnd']; subst.
  split; [exact Hnd'|]. split; [exact Hnn|]. intros b.
  destruct (tk_state0 _ _ H) as (st & Hst & Hs).
  destruct (tk_next _ _ H st b (nth_error_In _ _ Hst)) as (j & st' & _ & Hpos & Hj & Hl).
  rewrite Hs in Hl; cbn in Hl.
  destruct Hl as [(-> & _)|(_ & x & Hx & Hne & Hsx & _)]; [lia|].
  assert (x = [b]) as ->.
  { apply (suffix_snoc x [] b) in Hsx as (y & -> & Hy); [|exact Hne].
    apply suffix_nil in Hy as ->. reflexivity. }
  rewrite nth_error_map, Hj in Hx; cbn in Hx. injection Hx as Hx.
  pose proof (tk_state_good _ _ H) as Hg. rewrite Forall_forall in Hg.
  destruct (Hg st' (nth_error_In _ _ Hj)) as [(E & _)|(_ & Hp & Hlo)]; [congruence|].
  rewrite Hx in Hlo. destruct Hlo as [(E & _)|(_ & y & Hy & Hyn & Hys & _)]; [lia|].
  assert (y = [b]) as ->.
  { apply (suffix_snoc y [] b) in Hys as (z & -> & Hz); [|exact Hyn].
    apply suffix_nil in Hz as ->. reflexivity. }
  destruct (ss_span st') as [|k]; [lia|]. cbn in Hy. eapply nth_error_In; exact Hy.
Qed.

(** ** C01, "if" *)
Lemma usable_tokenizer ts : usable ts -> exists tk, tokenizer_new ts = Ret tk.
Proof.
  intros (Hnd & Hne & Hb). unfold tokenizer_new.
  destruct (create_spans_spec ts) as [(_ & m & E & Hm)|(Hno & _)];
    [|exfalso; apply Hno; constructor; assumption].
  rewrite E; cbn [bind]. unfold create_suffix_states. rewrite span_loop.
  set (D := [] :: strings ts) in *.
  set (PL := flat_map _ _).
  assert (HnPL : ~ In [] PL).
  { unfold PL. rewrite in_flat_map. intros (sp & _ & Hp). apply in_prefixes in Hp. tauto. }
  destruct (add_prefixes_total D m PL Hm eq_refl HnPL) with (st := ([mkState [] 0 []], sinsert [] [] 0))
    as ([states sm] & Hst).
  { intros p Hp. assert (Hpn : p <> []) by congruence.
    destruct (exists_last Hpn) as (y & b & ->). exists [b]. split; [exists y; reflexivity|].
    split; [discriminate|right; apply Hb]. }
  { apply states0_inv. }
  rewrite Hst; cbn [bind].
  destruct (add_prefixes D m PL Hm eq_refl HnPL _ _ (states0_inv D) Hst) as ((Hsm & Hs0 & _) & Hin).
  cbn [fst snd] in *.
  destruct (mmap_total (fill_next sm) states) as (r & ->); [|cbn; eauto].
  intros st _. unfold fill_next.
  destruct (mmap_total (next_state sm (ss_suffix st)) all_bytes) as (nx & ->); [|cbn; eauto].
  intros b _. destruct (next_state_spec sm _ (ss_suffix st) b Hsm Hs0) as [(j & -> & _)|(_ & Hno)]; [eauto|].
  exfalso. apply (Hno [b]); [exists (ss_suffix st); reflexivity|discriminate|].
  apply Hin. right. unfold PL. apply in_flat_map.
  assert (Hbin : In [b] (map sp_string (span0 :: map (set_suffix m) (raw_spans ts)))).
  { right. cbn. rewrite map_map; cbn. change (In [b] (map sp_string (raw_spans ts))).
    rewrite strings_raw_spans. apply Hb. }
  apply in_map_iff in Hbin as (sp & Es & Hsp). exists sp. split; [exact Hsp|].
  apply in_prefixes. split; [discriminate|]. exists []. rewrite app_nil_r. exact Es.
Qed.
