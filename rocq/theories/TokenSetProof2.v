(** * Sorting, removing and naming token sets. *)
From Coq Require Import String Decimal DecimalString DecimalNat Ascii.
From Verif Require Import Base BaseLemmas TokenSetModel TokenizerModel TokSpec
  SortLemmas TokenSetProof TokenizerTheory.
Local Open Scope list_scope.

(** What a sequence denotes: its string and the tokens (not indices) it uses. *)
Definition denotes (ts : tokenset) (q : sequence) : bstr * list (option token) :=
  (seq_string q, map (nth_error (tokens ts)) (seq_tokens q)).

(** ** new_indices *)
Lemma fold_upd_notin l : forall a v c, ~ In c l ->
  nth_error (fold_left (fun (v : list nat) p => upd (snd p) (fun _ => fst p) v) (enum_from a l) v) c
  = nth_error v c.
Proof.
  induction l as [|x l IH]; intros a v c Hc; cbn; [reflexivity|].
  rewrite IH by (intros ?; apply Hc; right; assumption).
  rewrite nth_error_upd. destruct (Nat.eqb_spec c x) as [->|]; [|reflexivity].
  exfalso; apply Hc; left; reflexivity.
Qed.

Lemma fold_upd_in l : forall a v k c, NoDup l -> nth_error l k = Some c -> c < List.length v ->
  nth_error (fold_left (fun (v : list nat) p => upd (snd p) (fun _ => fst p) v) (enum_from a l) v) c
  = Some (a + k).
Proof.
  induction l as [|x l IH]; intros a v [|k] c Hnd Hk Hc; cbn in *; try discriminate.
  - injection Hk as ->. inversion Hnd; subst. rewrite fold_upd_notin by assumption.
    rewrite nth_error_upd, Nat.eqb_refl.
    destruct (nth_error v c) eqn:E; [cbn; f_equal; lia|].
    apply nth_error_None in E; lia.
  - inversion Hnd; subst. rewrite (IH (S a) _ k c); auto; [f_equal; lia|].
    rewrite upd_length; exact Hc.
Qed.

Definition idx_leb (ts : tokenset) (a b : nat) : bool :=
  match nth_error (tokens ts) a, nth_error (tokens ts) b with
  | Some x, Some y => cmp_leb (token_cmp x y)
  | _, _ => true
  end.

Definition tok_leb (a b : token) : bool := cmp_leb (token_cmp a b).
Definition seq_leb (a b : sequence) : bool := cmp_leb (sequence_cmp a b).

Lemma sorted_idxs_perm ts : Permutation (sorted_idxs ts) (seq 0 (ntokens ts)).
Proof. apply sort_perm. Qed.

Lemma new_indices_spec ts c : c < ntokens ts ->
  exists k, nth_error (new_indices ts) c = Some k /\ nth_error (sorted_idxs ts) k = Some c.
Proof.
  intros Hc. pose proof (sorted_idxs_perm ts) as Hp.
  assert (Hin : In c (sorted_idxs ts)).
  { apply (Permutation_in _ (Permutation_sym Hp)). apply in_seq; lia. }
  apply In_nth_error in Hin as (k & Hk). exists k. split; [|exact Hk].
  unfold new_indices, enum. rewrite (fold_upd_in _ 0 _ k c); auto.
  - eapply Permutation_NoDup; [apply Permutation_sym; exact Hp|apply seq_NoDup].
  - rewrite repeat_length; exact Hc.
Qed.

Lemma new_indices_length ts : List.length (new_indices ts) = ntokens ts.
Proof.
  unfold new_indices. generalize (enum (sorted_idxs ts)) as l.
  assert (H : forall l (v : list nat), List.length (fold_left (fun v p => upd (snd p) (fun _ => fst p) v) l v)
                            = List.length v).
  { induction l as [|p l IH]; intros v; cbn; [reflexivity|]. rewrite IH, upd_length; reflexivity. }
  intros l. rewrite H, repeat_length. reflexivity.
Qed.

Lemma nth_error_seq0 n i : i < n -> nth_error (seq 0 n) i = Some i.
Proof.
  intros H. rewrite (nth_error_nth' _ 0) by (rewrite seq_length; exact H).
  rewrite seq_nth by exact H. reflexivity.
Qed.

(** The sorted tokens are the tokens read along the sorted index list. *)
Lemma sorted_tokens_eq ts d :
  stable_sort tok_leb (tokens ts) = map (fun i => nth i (tokens ts) d) (sorted_idxs ts).
Proof.
  assert (E : tokens ts = map (fun i => nth i (tokens ts) d) (seq 0 (ntokens ts))).
  { unfold ntokens. generalize (tokens ts) as l. clear ts.
    induction l as [|x l IH]; cbn; [reflexivity|]. f_equal.
    rewrite <- seq_shift, map_map. exact IH. }
  rewrite E at 1. unfold sorted_idxs. fold (ntokens ts).
  apply (sort_map (fun i => nth i (tokens ts) d) tok_leb).
  intros x y Hx Hy. apply in_seq in Hx, Hy. unfold ntokens in Hx, Hy.
  rewrite (nth_error_nth' (tokens ts) d) by lia.
  rewrite (nth_error_nth' (tokens ts) d) by lia. reflexivity.
Qed.

Lemma new_index_token ts c : c < ntokens ts ->
  exists k, nth_error (new_indices ts) c = Some k /\
    nth_error (stable_sort tok_leb (tokens ts)) k = nth_error (tokens ts) c.
Proof.
  intros Hc. destruct (new_indices_spec ts c Hc) as (k & Hk & Hs). exists k. split; [exact Hk|].
  destruct (nth_error (tokens ts) c) as [t|] eqn:E;
    [|apply nth_error_None in E; unfold ntokens in Hc; lia].
  rewrite (sorted_tokens_eq ts t), nth_error_map, Hs. cbn.
  f_equal. eapply nth_error_nth; exact E.
Qed.

Definition relabel (ts : tokenset) (q q' : sequence) : Prop :=
  seq_string q' = seq_string q /\
  Forall2 (fun t t' => nth_error (new_indices ts) t = Some t') (seq_tokens q) (seq_tokens q').

Lemma relabel_seqs ts seqs seqs' :
  mmap (fun q => toks <- mmap (idx (new_indices ts)) (seq_tokens q) ;; Ret (mkSeq (seq_string q) toks))
       seqs = Ret seqs' <-> Forall2 (relabel ts) seqs seqs'.
Proof.
  rewrite mmap_ret. split; intros H; (eapply Forall2_impl; [|exact H]); clear H.
  - intros q q' H. apply bind_ret in H as (toks & H & E). injection E as <-. apply mmap_ret in H.
    split; [reflexivity|]. cbn. eapply Forall2_impl; [|exact H]. intros a b Hab. apply idx_ret; exact Hab.
  - intros q q' (Hs & Ht). apply bind_ret. exists (seq_tokens q'). split.
    + apply mmap_ret. eapply Forall2_impl; [|exact Ht]. intros a b Hab. apply idx_ret; exact Hab.
    + destruct q'; cbn in *; congruence.
Qed.

Lemma relabel_denotes ts q q' T :
  T = stable_sort tok_leb (tokens ts) -> relabel ts q q' ->
  map (nth_error T) (seq_tokens q') = map (nth_error (tokens ts)) (seq_tokens q).
Proof.
  intros -> (_ & H). induction H as [|t t' l l' Ht _ IH]; cbn; [reflexivity|]. f_equal; [|exact IH].
  assert (Hlt : t < ntokens ts).
  { rewrite <- new_indices_length. apply nth_error_Some; congruence. }
  destruct (new_index_token ts t Hlt) as (k & Hk & E). rewrite Ht in Hk; injection Hk as <-. exact E.
Qed.

Record sorted_version (ts ts' : tokenset) : Prop := {
  sv_ext : n_ext_tokens ts' = n_ext_tokens ts;
  sv_type : ts_type ts' = ts_type ts;
  sv_proc : ts_processing ts' = ts_processing ts;
  sv_para : split_paragraphs ts' = split_paragraphs ts;
  sv_tokens : Permutation (tokens ts') (tokens ts);
  sv_tok_sorted : StronglySorted (fun a b => tok_leb a b = true) (tokens ts');
  sv_seq_sorted : StronglySorted (fun a b => seq_leb a b = true) (sequences ts');
  sv_denotes : Permutation (map (denotes ts') (sequences ts')) (map (denotes ts) (sequences ts))
}.

Lemma tok_leb_total x y : tok_leb x y = true \/ tok_leb y x = true.
Proof. apply cmp_total, token_cmp_good. Qed.
Lemma tok_leb_trans x y z : tok_leb x y = true -> tok_leb y z = true -> tok_leb x z = true.
Proof. apply token_cmp_good. Qed.
Lemma seq_leb_total x y : seq_leb x y = true \/ seq_leb y x = true.
Proof. apply (cmp_total bstr_cmp), bstr_cmp_good. Qed.
Lemma seq_leb_trans x y z : seq_leb x y = true -> seq_leb y z = true -> seq_leb x z = true.
Proof. apply bstr_cmp_good. Qed.

Lemma ts_sort_ret ts ts' : ts_sort ts = Ret ts' ->
  exists seqs, Forall2 (relabel ts) (sequences ts) seqs /\
    ts' = mkTS (n_ext_tokens ts) (ts_type ts) (ts_processing ts) (split_paragraphs ts)
               (stable_sort tok_leb (tokens ts)) (stable_sort seq_leb seqs).
Proof.
  unfold ts_sort. intros H. apply bind_ret in H as (seqs & H & E). injection E as <-.
  apply relabel_seqs in H. exists seqs. split; [exact H|reflexivity].
Qed.

Lemma ts_sort_sorted ts ts' : ts_sort ts = Ret ts' -> sorted_version ts ts'.
Proof.
  intros H. apply ts_sort_ret in H as (seqs & Hs & ->). constructor; cbn; auto.
  - apply sort_perm.
  - apply sort_sorted; [exact tok_leb_total|exact tok_leb_trans].
  - apply sort_sorted; [exact seq_leb_total|exact seq_leb_trans].
  - set (ts' := mkTS _ _ _ _ _ _).
    transitivity (map (denotes ts') seqs); [apply Permutation_map, sort_perm|].
    replace (map (denotes ts') seqs) with (map (denotes ts) (sequences ts)); [reflexivity|].
    clear - Hs. induction Hs as [|q q' l l' Hq _ IH]; cbn; [reflexivity|]. f_equal; [|exact IH].
    unfold denotes. rewrite (proj1 Hq). f_equal. symmetry.
    apply (relabel_denotes ts q q' _ eq_refl Hq).
Qed.

Lemma ts_sort_total ts : seqs_in_range ts -> exists ts', ts_sort ts = Ret ts'.
Proof.
  intros Hr. unfold ts_sort.
  destruct (mmap_total (fun q => toks <- mmap (idx (new_indices ts)) (seq_tokens q) ;;
              Ret (mkSeq (seq_string q) toks)) (sequences ts)) as (r & ->); [|cbn; eauto].
  intros q Hq. destruct (mmap_total (idx (new_indices ts)) (seq_tokens q)) as (l & ->); [|cbn; eauto].
  intros t Ht. destruct (new_indices_spec ts t (Hr q t Hq Ht)) as (k & Hk & _).
  exists k. apply idx_ret; exact Hk.
Qed.

Lemma ts_sort_in_range ts ts' : ts_sort ts = Ret ts' -> seqs_in_range ts.
Proof.
  intros H q t Hq Ht. apply ts_sort_ret in H as (seqs & Hs & _).
  apply In_nth_error in Hq as (i & Hi). destruct (Forall2_nth _ _ _ Hs i q Hi) as (q' & _ & (_ & Hr)).
  apply In_nth_error in Ht as (j & Hj). destruct (Forall2_nth _ _ _ Hr j t Hj) as (t' & _ & E).
  rewrite <- new_indices_length. apply nth_error_Some; congruence.
Qed.

(** ** Consequences for the dictionary *)
Lemma sv_str_tokens ts ts' : sorted_version ts ts' -> Permutation (str_tokens ts') (str_tokens ts).
Proof.
  intros H. unfold str_tokens. apply Permutation_flat_map. apply (sv_tokens _ _ H).
Qed.

Lemma map_fst_denotes ts l : map fst (map (denotes ts) l) = map seq_string l.
Proof. rewrite map_map. reflexivity. Qed.

Lemma sv_strings ts ts' : sorted_version ts ts' -> Permutation (strings ts') (strings ts).
Proof.
  intros H. unfold strings. apply Permutation_app; [apply (sv_str_tokens _ _ H)|].
  rewrite <- (map_fst_denotes ts'), <- (map_fst_denotes ts). apply Permutation_map, (sv_denotes _ _ H).
Qed.

Lemma usable_perm a b : Permutation (strings a) (strings b) -> usable b -> usable a.
Proof.
  intros H (H1 & H2 & H3). split; [|split].
  - eapply Permutation_NoDup; [apply Permutation_sym; exact H|exact H1].
  - intros Hx. apply H2. eapply Permutation_in; eauto.
  - intros c. eapply Permutation_in; [apply Permutation_sym; exact H|apply H3].
Qed.

Lemma sv_ntokens ts ts' : sorted_version ts ts' -> ntokens ts' = ntokens ts.
Proof. intros H. apply Permutation_length, (sv_tokens _ _ H). Qed.

Lemma sv_in_range ts ts' : seqs_in_range ts -> sorted_version ts ts' -> seqs_in_range ts'.
Proof.
  intros Hr H q t Hq Ht.
  assert (Hd : In (denotes ts' q) (map (denotes ts) (sequences ts))).
  { apply (Permutation_in _ (sv_denotes _ _ H)). apply in_map; exact Hq. }
  apply in_map_iff in Hd as (q0 & E & Hq0). injection E as _ E.
  assert (Hin : In (nth_error (tokens ts') t) (map (nth_error (tokens ts)) (seq_tokens q0)))
    by (rewrite E; apply in_map; exact Ht).
  apply in_map_iff in Hin as (t0 & E0 & Ht0). specialize (Hr q0 t0 Hq0 Ht0).
  unfold ntokens in *. apply nth_error_Some. rewrite <- E0. apply nth_error_Some. exact Hr.
Qed.

Lemma sv_nonempty ts ts' : seqs_nonempty ts -> sorted_version ts ts' -> seqs_nonempty ts'.
Proof.
  intros Hn H q Hq E.
  assert (Hd : In (denotes ts' q) (map (denotes ts) (sequences ts))).
  { apply (Permutation_in _ (sv_denotes _ _ H)). apply in_map; exact Hq. }
  apply in_map_iff in Hd as (q0 & Ed & Hq0). injection Ed as _ Ed.
  rewrite E in Ed; cbn in Ed. apply map_eq_nil in Ed. exact (Hn q0 Hq0 Ed).
Qed.

Lemma dict_entry ts x c :
  (exists p, piece_string ts p = Some x /\ List.length (piece_tokens ts p) = c) <->
  (In (Str x) (tokens ts) /\ c = 1) \/
  (exists q, In q (sequences ts) /\ seq_string q = x /\ List.length (seq_tokens q) = c).
Proof.
  split.
  - intros ([i|i] & Hp & Hc); cbn in *.
    + left. destruct (nth_error (tokens ts) i) as [[s|n]|] eqn:E; try discriminate.
      injection Hp as ->. split; [eapply nth_error_In; exact E|lia].
    + right. destruct (nth_error (sequences ts) i) as [q|] eqn:E; [|discriminate].
      injection Hp as Hp. exists q. split; [eapply nth_error_In; exact E|auto].
  - intros [(Hin & ->)|(q & Hq & <- & Hc)].
    + apply In_nth_error in Hin as (i & Hi). exists (PTok i). cbn. rewrite Hi. auto.
    + apply In_nth_error in Hq as (i & Hi). exists (PSeq i). cbn. rewrite Hi. auto.
Qed.

Lemma sv_same_dict ts ts' : sorted_version ts ts' -> same_dict ts ts'.
Proof.
  intros H x c. rewrite !dict_entry.
  assert (Htok : In (Str x) (tokens ts) <-> In (Str x) (tokens ts')).
  { split; apply Permutation_in; [apply Permutation_sym|]; apply (sv_tokens _ _ H). }
  assert (Hseq : forall a b, Permutation (map (denotes a) (sequences a)) (map (denotes b) (sequences b)) ->
     (exists q, In q (sequences a) /\ seq_string q = x /\ List.length (seq_tokens q) = c) ->
     (exists q, In q (sequences b) /\ seq_string q = x /\ List.length (seq_tokens q) = c)).
  { intros a b Hp (q & Hq & Hs & Hc).
    assert (Hd : In (denotes a q) (map (denotes b) (sequences b))).
    { apply (Permutation_in _ Hp). apply in_map; exact Hq. }
    apply in_map_iff in Hd as (q0 & E & Hq0). injection E as E1 E2. exists q0.
    split; [exact Hq0|]. split; [congruence|]. apply (f_equal (@List.length _)) in E2.
    rewrite !map_length in E2. congruence. }
  split; intros [(H1 & H2)|H1].
  - left; split; [apply Htok; exact H1|exact H2].
  - right. apply (Hseq ts ts'); [apply Permutation_sym, (sv_denotes _ _ H)|exact H1].
  - left; split; [apply Htok; exact H1|exact H2].
  - right. apply (Hseq ts' ts); [apply (sv_denotes _ _ H)|exact H1].
Qed.

(** ** Idempotence *)
Lemma sorted_nth {A} (R : A -> A -> Prop) l : StronglySorted R l ->
  forall i j x y, i < j -> nth_error l i = Some x -> nth_error l j = Some y -> R x y.
Proof.
  induction 1 as [|a l Hl IH Ha]; intros [|i] [|j] x y Hij Hx Hy; cbn in *; try discriminate; try lia.
  - injection Hx as ->. rewrite Forall_forall in Ha. apply Ha. eapply nth_error_In; exact Hy.
  - apply (IH i j); auto; lia.
Qed.

Lemma seq_sorted (R : nat -> nat -> Prop) n : forall a,
  (forall i j, a <= i -> i < j -> j < a + n -> R i j) -> StronglySorted R (seq a n).
Proof.
  induction n as [|n IH]; intros a H; cbn; constructor.
  - apply IH. intros i j Hi Hij Hj. apply H; lia.
  - apply Forall_forall. intros x Hx. apply in_seq in Hx. apply H; lia.
Qed.

Lemma sorted_idxs_id ts : StronglySorted (fun a b => tok_leb a b = true) (tokens ts) ->
  sorted_idxs ts = seq 0 (ntokens ts).
Proof.
  intros H. apply sort_id. apply seq_sorted. intros i j _ Hij Hj. unfold ord.
  destruct (nth_error (tokens ts) i) as [x|] eqn:Ex; [|reflexivity].
  destruct (nth_error (tokens ts) j) as [y|] eqn:Ey; [|reflexivity].
  exact (sorted_nth _ _ H i j x y Hij Ex Ey).
Qed.

Lemma ts_sort_idempotent ts ts' : ts_sort ts = Ret ts' -> ts_sort ts' = Ret ts'.
Proof.
  intros H. pose proof (ts_sort_sorted _ _ H) as Hv.
  pose proof (sv_in_range _ _ (ts_sort_in_range _ _ H) Hv) as Hr.
  destruct (ts_sort_total ts' Hr) as (ts2 & H2).
  pose proof H2 as H2'. apply ts_sort_ret in H2' as (seqs & Hs & ->).
  assert (seqs = sequences ts') as ->.
  { assert (Hid : forall q q', relabel ts' q q' -> q' = q).
    { intros q q' (E & Ht). destruct q as [s l], q' as [s' l']; cbn in *. subst s'. f_equal.
      induction Ht as [|t t' l l' Ht _ IH]; [reflexivity|]. f_equal; [|exact IH].
      assert (Hlt : t < ntokens ts') by (rewrite <- new_indices_length; apply nth_error_Some; congruence).
      destruct (new_indices_spec ts' t Hlt) as (k & Hk & Hsk).
      rewrite (sorted_idxs_id _ (sv_tok_sorted _ _ Hv)) in Hsk.
      assert (Hk2 : k < ntokens ts').
      { rewrite <- (seq_length (ntokens ts') 0). apply nth_error_Some; congruence. }
      rewrite nth_error_seq0 in Hsk by exact Hk2. congruence. }
    clear - Hs Hid. induction Hs as [|q q' l l' Hq _ IH]; [reflexivity|].
    f_equal; [apply Hid; exact Hq|exact IH]. }
  rewrite H2. f_equal.
  rewrite (sort_id _ _ (sv_tok_sorted _ _ Hv)), (sort_id _ _ (sv_seq_sorted _ _ Hv)).
  destruct ts'; reflexivity.
Qed.

(** ** Canonicity *)
Lemma denotes_inj ts q q' : NoDup (tokens ts) ->
  (forall t, In t (seq_tokens q) -> t < ntokens ts) ->
  denotes ts q = denotes ts q' -> q = q'.
Proof.
  intros Hnd Hr E. injection E as E1 E2. destruct q as [s l], q' as [s' l']; cbn in *. subst s'. f_equal.
  revert l' E2; induction l as [|t l IH]; intros [|t' l'] E2; cbn in *; try discriminate; [reflexivity|].
  injection E2 as E E2. f_equal; [|apply IH; auto].
  apply (proj1 (NoDup_nth_error _) Hnd); [|exact E]. apply Hr; left; reflexivity.
Qed.

Lemma ts_sort_canonical a b a' :
  NoDup (tokens a) -> NoDup (map seq_string (sequences a)) ->
  n_ext_tokens a = n_ext_tokens b -> ts_type a = ts_type b -> ts_processing a = ts_processing b ->
  split_paragraphs a = split_paragraphs b ->
  Permutation (tokens a) (tokens b) ->
  Permutation (map (denotes a) (sequences a)) (map (denotes b) (sequences b)) ->
  ts_sort a = Ret a' -> ts_sort b = Ret a'.
Proof.
  intros Hnd Hns He Ht Hp Hsp HT HS Ha.
  pose proof (ts_sort_sorted _ _ Ha) as Va.
  pose proof (ts_sort_in_range _ _ Ha) as Ra.
  assert (Rb : seqs_in_range b).
  { intros q t Hq Hqt.
    assert (Hd : In (denotes b q) (map (denotes a) (sequences a))).
    { apply (Permutation_in _ (Permutation_sym HS)). apply in_map; exact Hq. }
    apply in_map_iff in Hd as (q0 & E & Hq0). injection E as _ E.
    assert (Hin : In (nth_error (tokens b) t) (map (nth_error (tokens a)) (seq_tokens q0)))
      by (rewrite E; apply in_map; exact Hqt).
    apply in_map_iff in Hin as (t0 & E0 & Ht0). specialize (Ra q0 t0 Hq0 Ht0).
    unfold ntokens in *. apply nth_error_Some. rewrite <- E0. apply nth_error_Some. exact Ra. }
  destruct (ts_sort_total b Rb) as (b' & Hb). rewrite Hb. f_equal.
  pose proof (ts_sort_sorted _ _ Hb) as Vb.
  assert (ET : tokens b' = tokens a').
  { apply (sorted_unique tok_leb).
    - intros x y _ _. apply (cmp_antisym token_cmp), token_cmp_good.
    - rewrite (sv_tokens _ _ Vb), (sv_tokens _ _ Va). apply Permutation_sym; exact HT.
    - apply (sv_tok_sorted _ _ Vb).
    - apply (sv_tok_sorted _ _ Va). }
  assert (Hnd' : NoDup (tokens a')).
  { eapply Permutation_NoDup; [apply Permutation_sym, (sv_tokens _ _ Va)|exact Hnd]. }
  assert (ES : sequences b' = sequences a').
  { assert (Hperm : Permutation (map (denotes a') (sequences b')) (map (denotes a') (sequences a'))).
    { replace (map (denotes a') (sequences b')) with (map (denotes b') (sequences b'))
        by (unfold denotes; rewrite ET; reflexivity).
      rewrite (sv_denotes _ _ Vb), (sv_denotes _ _ Va). apply Permutation_sym; exact HS. }
    apply Permutation_sym in Hperm.
    assert (Hp2 : Permutation (sequences b') (sequences a')).
    { apply Permutation_map_inv in Hperm as (l & E & Hl).
      assert (l = sequences a') as <-; [|exact Hl].
      pose proof (sv_in_range _ _ Ra Va) as Ra'.
      clear - E Hnd' Ra'. unfold seqs_in_range in Ra'.
      revert l E. generalize (sequences a') as s, Ra'. clear Ra'.
      induction s as [|q s IH]; intros Hr [|q' l] E; cbn in E; try discriminate; [reflexivity|].
      injection E as Eq1 Eq2 El.
      assert (Hq : denotes a' q = denotes a' q') by (unfold denotes; congruence).
      apply denotes_inj in Hq as ->; [|exact Hnd'|intros t Ht2; apply (Hr q); [left; reflexivity|exact Ht2]].
      f_equal. apply IH; [|exact El]. intros q0 t Hq0; apply Hr; right; exact Hq0. }
    apply (sorted_unique seq_leb).
    - intros x y Hx Hy Hxy Hyx.
      assert (E : seq_string x = seq_string y).
      { apply (cmp_antisym bstr_cmp); auto. apply bstr_cmp_good. }
      apply (Permutation_in _ Hp2) in Hx, Hy.
      assert (Hn : NoDup (map seq_string (sequences a'))).
      { rewrite <- (map_fst_denotes a'). eapply Permutation_NoDup;
          [apply Permutation_map, Permutation_sym, (sv_denotes _ _ Va)|].
        rewrite map_fst_denotes. exact Hns. }
      clear - Hx Hy E Hn. induction (sequences a') as [|q l IH]; [destruct Hx|].
      cbn in Hn. inversion Hn as [|? ? Hq Hl]; subst. destruct Hx as [->|Hx], Hy as [->|Hy]; auto.
      + exfalso; apply Hq. rewrite E. apply in_map; exact Hy.
      + exfalso; apply Hq. rewrite <- E. apply in_map; exact Hx.
    - exact Hp2.
    - apply (sv_seq_sorted _ _ Vb).
    - apply (sv_seq_sorted _ _ Va). }
  pose proof (sv_ext _ _ Va). pose proof (sv_ext _ _ Vb). pose proof (sv_type _ _ Va).
  pose proof (sv_type _ _ Vb). pose proof (sv_proc _ _ Va). pose proof (sv_proc _ _ Vb).
  pose proof (sv_para _ _ Va). pose proof (sv_para _ _ Vb).
  destruct a', b'; cbn in *. congruence.
Qed.

(** ** remove_token *)
Lemma removelast_length {A} (l : list A) : List.length (removelast l) = List.length l - 1.
Proof.
  induction l as [|x [|y l] IH]; cbn in *; auto. rewrite IH. cbn. lia.
Qed.

Lemma nth_error_removelast {A} (l : list A) i :
  i < List.length l - 1 -> nth_error (removelast l) i = nth_error l i.
Proof.
  revert i; induction l as [|x [|y l] IH]; intros [|i] H; cbn in *; auto; try lia.
  apply IH. lia.
Qed.

Lemma nth_error_removelast_None {A} (l : list A) i :
  List.length l - 1 <= i -> nth_error (removelast l) i = None.
Proof. intros H. apply nth_error_None. rewrite removelast_length; exact H. Qed.

Lemma perm_removelast {A} (l : list A) x : nth_error l (List.length l - 1) = Some x ->
  Permutation l (x :: removelast l).
Proof.
  intros H. destruct l as [|y l0] eqn:E using rev_ind; [discriminate|].
  rewrite app_length in H; cbn in H. rewrite nth_error_app2 in H by lia.
  replace (List.length l0 + 1 - 1 - List.length l0) with 0 in H by lia.
  injection H as <-. rewrite removelast_last. rewrite Permutation_app_comm. reflexivity.
Qed.

Lemma perm_upd {A} (l : list A) i x y : nth_error l i = Some y ->
  Permutation (x :: l) (y :: upd i (fun _ => x) l).
Proof.
  revert i; induction l as [|z l IH]; intros [|i] H; cbn in *; try discriminate.
  - injection H as <-. apply perm_swap.
  - rewrite perm_swap. rewrite (IH i H). apply perm_swap.
Qed.

Lemma remove_token_ok ts i : i < ntokens ts ->
  (forall q, In q (sequences ts) -> ~ In i (seq_tokens q)) ->
  exists ts' t, remove_token ts i = Ret ts' /\ nth_error (tokens ts) i = Some t /\
    Permutation (tokens ts) (t :: tokens ts') /\
    map (denotes ts') (sequences ts') = map (denotes ts) (sequences ts) /\
    n_ext_tokens ts' = n_ext_tokens ts /\ ts_type ts' = ts_type ts /\
    ts_processing ts' = ts_processing ts /\ split_paragraphs ts' = split_paragraphs ts.
Proof.
  intros Hi Hno. unfold remove_token, ntokens in *.
  assert (Hf : forallb (fun q => negb (existsb (Nat.eqb i) (seq_tokens q))) (sequences ts) = true).
  { apply forallb_forall. intros q Hq. apply negb_true_iff. apply not_true_iff_false. intros E.
    apply existsb_exists in E as (t & Ht & E). apply Nat.eqb_eq in E; subst t. exact (Hno q Hq Ht). }
  rewrite Hf; cbn [assert_that bind]. rewrite checked_sub_le by lia. cbn [bind].
  set (last := List.length (tokens ts) - 1).
  destruct (nth_error (tokens ts) last) as [lt|] eqn:El;
    [|apply nth_error_None in El; unfold last in El; lia].
  destruct (nth_error (tokens ts) i) as [t|] eqn:Ei; [|apply nth_error_None in Ei; lia].
  assert (Hnl : forall j, j < last -> nth_error (removelast (tokens ts)) j = nth_error (tokens ts) j)
    by (intros; apply nth_error_removelast; assumption).
  destruct (Nat.eqb_spec i last) as [->|Hne].
  - eexists; exists t. split; [reflexivity|]. split; [reflexivity|]. cbn. split.
    + apply perm_removelast; exact Ei.
    + split; [|auto]. apply map_ext_in. intros q Hq. unfold denotes; cbn. f_equal.
      apply map_ext_in. intros j Hj.
      assert (j <> last) by (intros ->; exact (Hno q Hq Hj)).
      destruct (Nat.lt_ge_cases j last); [auto|].
      rewrite nth_error_removelast_None by lia. symmetry. apply nth_error_None. unfold last in *; lia.
  - unfold idx. rewrite El; cbn [unwrap bind].
    unfold idx_upd. rewrite removelast_length. fold last.
    rewrite (proj2 (Nat.ltb_lt i last)) by (unfold last in *; lia). cbn [bind].
    eexists; exists t. split; [reflexivity|]. split; [reflexivity|]. cbn. split.
    + eapply Permutation_trans; [exact (perm_removelast _ _ El)|]. apply perm_upd.
      rewrite Hnl by (unfold last in *; lia). exact Ei.
    + split; [|auto]. rewrite map_map. apply map_ext_in. intros q Hq. unfold denotes; cbn. f_equal.
      rewrite map_map. apply map_ext_in. intros j Hj.
      assert (j <> i) by (intros ->; exact (Hno q Hq Hj)).
      destruct (Nat.eqb_spec j last) as [->|Hj2].
      * rewrite nth_error_upd, Nat.eqb_refl, Hnl by (unfold last in *; lia). rewrite Ei, El. reflexivity.
      * rewrite nth_error_upd. replace (j =? i) with false by (symmetry; apply Nat.eqb_neq; assumption).
        destruct (Nat.lt_ge_cases j last); [auto|].
        rewrite nth_error_removelast_None by (unfold last in *; lia).
        symmetry. apply nth_error_None. unfold last in *; lia.
Qed.

Lemma remove_token_inv ts i ts' : remove_token ts i = Ret ts' ->
  i < ntokens ts /\ forall q, In q (sequences ts) -> ~ In i (seq_tokens q).
Proof.
  unfold remove_token, ntokens. intros H. apply assert_that_bind in H as (Hf & H).
  apply bind_ret in H as (last & Hl & H). apply checked_sub_ret in Hl as (Hle & ->).
  split.
  - destruct (Nat.eqb_spec i (List.length (tokens ts) - 1)) as [->|Hne]; [lia|].
    apply bind_ret in H as (lt & _ & H). apply bind_ret in H as (toks & Hu & _).
    apply idx_upd_ret in Hu as (Hu & _). rewrite removelast_length in Hu. lia.
  - rewrite forallb_forall in Hf. intros q Hq Hin. specialize (Hf q Hq).
    apply negb_true_iff in Hf. apply not_true_iff_false in Hf. apply Hf.
    apply existsb_exists. exists i. split; [exact Hin|apply Nat.eqb_refl].
Qed.

(** ** find_token *)
Lemma position_Some {A} (p : A -> bool) l i : position p l = Some i <->
  (exists x, nth_error l i = Some x /\ p x = true) /\
  forall j y, j < i -> nth_error l j = Some y -> p y = false.
Proof.
  revert i; induction l as [|x l IH]; intros i; cbn.
  - split; [discriminate|]. intros ((x & H & _) & _). destruct i; discriminate.
  - destruct (p x) eqn:E.
    + split.
      * intros H; injection H as <-. split; [exists x; auto|intros; lia].
      * intros (_ & H). destruct i as [|i]; [reflexivity|].
        specialize (H 0 x ltac:(lia) eq_refl). congruence.
    + split.
      * destruct (position p l) as [k|] eqn:Ek; cbn; [|discriminate].
        intros H; injection H as <-. destruct (proj1 (IH k) eq_refl) as (H1 & H2). split; [exact H1|].
        intros [|j] y Hj Hy; [cbn in Hy; congruence|]. apply (H2 j); [lia|exact Hy].
      * intros ((y & Hy & Hp) & Hn). destruct i as [|i]; [cbn in Hy; congruence|].
        rewrite (proj2 (IH i)); [reflexivity|]. split; [eauto|].
        intros j z Hj Hz. apply (Hn (S j)); [lia|exact Hz].
Qed.

Lemma position_None {A} (p : A -> bool) l : position p l = None <-> forall x, In x l -> p x = false.
Proof.
  induction l as [|x l IH]; cbn; [split; [tauto|auto]|].
  destruct (p x) eqn:E.
  - split; [discriminate|]. intros H. specialize (H x (or_introl eq_refl)). congruence.
  - destruct (position p l); cbn; split; try discriminate.
    + intros H. assert (Some n = None) by (apply IH; intros; apply H; right; assumption). discriminate.
    + intros _ y [<-|Hy]; [exact E|]. apply (proj1 IH eq_refl); exact Hy.
    + auto.
Qed.

(** ** name *)
Fixpoint no_underscore (s : string) : Prop :=
  match s with
  | EmptyString => True
  | String c r => c <> "_"%char /\ no_underscore r
  end.

Lemma split_underscore u v a b : no_underscore u -> no_underscore v ->
  (u ++ String "_" a)%string = (v ++ String "_" b)%string -> u = v /\ a = b.
Proof.
  revert v; induction u as [|c u IH]; intros [|d v] Hu Hv E; cbn in *.
  - injection E as ->; auto.
  - injection E as <- _. exfalso; apply (proj1 Hv); reflexivity.
  - injection E as -> _. exfalso; apply (proj1 Hu); reflexivity.
  - injection E as -> E. destruct (IH v (proj2 Hu) (proj2 Hv) E) as [-> ->]. auto.
Qed.

Lemma no_underscore_uint d : no_underscore (NilEmpty.string_of_uint d).
Proof. induction d; cbn; split; auto; discriminate. Qed.

Lemma to_uint_nonnil n : Nat.to_uint n <> Nil.
Proof.
  intros E. pose proof (Unsigned.of_to n) as H. rewrite E in H. cbn in H. subst n. discriminate.
Qed.

Lemma show_nat_alt n : show_nat n = NilEmpty.string_of_uint (Nat.to_uint n).
Proof.
  unfold show_nat, NilZero.string_of_uint. pose proof (to_uint_nonnil n) as H.
  destruct (Nat.to_uint n); [congruence|reflexivity..].
Qed.

Lemma show_nat_inj n m : show_nat n = show_nat m -> n = m.
Proof.
  unfold show_nat. intros E. apply Unsigned.to_uint_inj.
  apply (f_equal NilZero.uint_of_string) in E.
  rewrite !NilZero.usu in E by apply to_uint_nonnil. congruence.
Qed.

Lemma append_inj_l a b c : (a ++ b)%string = (a ++ c)%string -> b = c.
Proof. induction a as [|x a IH]; intros E; [exact E|]. cbn in E. injection E as E. auto. Qed.

Lemma ts_name_inj a b : ts_name a = ts_name b ->
  ntokens a = ntokens b /\ ts_processing a = ts_processing b /\ ts_type a = ts_type b.
Proof.
  unfold ts_name. intros E. apply append_inj_l in E.
  rewrite !show_nat_alt in E.
  apply split_underscore in E as [En Er]; try apply no_underscore_uint.
  split; [apply show_nat_inj; rewrite !show_nat_alt; exact En|].
  destruct (ts_processing a), (ts_processing b), (ts_type a), (ts_type b); cbn in Er;
    try discriminate; auto.
Qed.
