(** * The invariant of the token sets the optimizer visits. *)
From Verif Require Import Base BaseLemmas TokenSetModel TokenizerModel TokSpec SortLemmas TokenizerProof1 TokenizerProof2
  TokenizerTheory TokenSetProof TokenSetProof2 PropTokenizer PropTokenSet
  PropJson Shaped OptBytesModel OptBytesProof OptBytesProof2
  OptBytesProof3 OptBytesProof4 PropOptBytes OptimizeModel.

Definition is_bits (t : token_type) : Prop := t = Bits1 \/ t = Bits2 \/ t = Bits4.

(** Length of the fallback sequences of a bits type. *)
Definition digits_of (t : token_type) : nat :=
  match t with Bits1 => 8 | Bits2 => 4 | Bits4 => 2 | Bytes | BytesHuff => 0 end.

(** Least and greatest number of extension and single-byte tokens. *)
Definition lo (t : token_type) : nat :=
  match t with Bits1 => 2 | Bits2 => 4 | Bits4 => 16 | Bytes => 256 | BytesHuff => 3 end.
Definition hi (t : token_type) : nat :=
  match t with Bits1 => 258 | Bits2 => 260 | Bits4 => 272 | Bytes => 256 | BytesHuff => 258 end.

Definition ext_tok (o : option token) : Prop := exists d, o = Some (Ext d).
Definition byte_tok (o : option token) : Prop := exists b, o = Some (Str [b]).

Definition seq_fits (t : token_type) (d : bstr * list (option token)) : Prop :=
  length (fst d) = 1 /\
  match t with
  | Bits1 | Bits2 | Bits4 => length (snd d) = digits_of t /\ Forall ext_tok (snd d)
  | Bytes => False
  | BytesHuff => length (snd d) <= 258 /\ Forall (fun o => ext_tok o \/ byte_tok o) (snd d)
  end.

(** Extension and single-byte tokens. *)
Definition base_size (ts : tokenset) : nat := ntokens ts - n_long_tokens ts.

Record visited (t : token_type) (p : processing) (sp : bool) (ts : tokenset) : Prop := {
  vi_shaped : exists ss, shaped ts ss;
  vi_usable : usable ts;
  vi_type : ts_type ts = t;
  vi_proc : ts_processing ts = p;
  vi_para : t <> BytesHuff -> split_paragraphs ts = sp;
  vi_seqs : forall d, In d (map (denotes ts) (sequences ts)) -> seq_fits t d;
  vi_huff : t = BytesHuff -> 3 <= base_size ts <= 258
}.

(** ** Consequences *)
Lemma n_long_le ts : n_long_tokens ts <= ntokens ts.
Proof.
  unfold n_long_tokens, ntokens. induction (tokens ts) as [|x l IH]; cbn; [lia|]. destruct (is_long x); cbn; lia.
Qed.

Lemma long_count l : length (filter is_long (map Str l)) = length (longs l).
Proof.
  unfold longs. induction l as [|x l IH]; [reflexivity|]. cbn [map filter is_long].
  destruct (1 <? length x); cbn [length]; congruence.
Qed.

Lemma shaped_long ts ss : shaped ts ss -> n_long_tokens ts = length (longs ss).
Proof.
  intros S. unfold n_long_tokens. rewrite (sh_tokens _ _ S), filter_app, app_length, long_count.
  replace (filter is_long _) with (@nil token); [reflexivity|].
  induction (seq 0 (n_ext_tokens ts)); cbn; auto.
Qed.

Lemma shaped_ntokens ts ss : shaped ts ss -> ntokens ts = n_ext_tokens ts + length ss.
Proof. intros S. unfold ntokens. rewrite (sh_tokens _ _ S), app_length, !map_length, seq_length. reflexivity. Qed.

Definition shorts (ss : list bstr) : list bstr := filter (fun s => negb (1 <? length s)) ss.

Lemma shorts_longs ss : length ss = length (shorts ss) + length (longs ss).
Proof.
  unfold shorts, longs. induction ss as [|x ss IH]; [reflexivity|]. cbn [filter length].
  destruct (1 <? length x); cbn [negb length]; lia.
Qed.

Lemma base_shaped ts ss : shaped ts ss -> base_size ts = n_ext_tokens ts + length (shorts ss).
Proof.
  intros S. unfold base_size. rewrite (shaped_long _ _ S), (shaped_ntokens _ _ S), (shorts_longs ss). lia.
Qed.

Lemma in_shorts ts ss x : shaped ts ss -> In x (shorts ss) <-> In x ss /\ exists b, x = [b].
Proof.
  intros S. unfold shorts. rewrite filter_In, negb_true_iff, Nat.ltb_ge. split; intros (H & H').
  - split; [exact H|]. destruct x as [|b [|? ?]]; [exfalso; apply (sh_nonempty _ _ S H)|eauto|cbn in H'; lia].
  - split; [exact H|]. destruct H' as (b & ->). cbn; lia.
Qed.

Lemma shorts_le ts ss : shaped ts ss -> length (shorts ss) <= 256.
Proof.
  intros S. rewrite <- all_bytes_length, <- (map_length (fun b : byte => [b]) all_bytes).
  apply NoDup_incl_length; [apply NoDup_filter, (sh_nodup _ _ S)|].
  intros x Hx. apply (in_shorts ts ss x S) in Hx as (_ & b & ->). apply in_map_iff. exists b. split; [reflexivity|apply in_all_bytes].
Qed.

Lemma base_range t p sp ts : visited t p sp ts -> lo t <= base_size ts <= hi t.
Proof.
  intros V. destruct (vi_shaped _ _ _ _ V) as (ss & S). pose proof (sh_fits _ _ S) as Hf.
  rewrite (vi_type _ _ _ _ V) in Hf. pose proof (shorts_le _ _ S) as Hs.
  destruct t; cbn [fits_type lo hi] in *; try (rewrite (base_shaped _ _ S); lia).
  - (* Bytes: every byte is a token *)
    rewrite (base_shaped _ _ S). assert (256 <= length (shorts ss)); [|lia].
    rewrite <- all_bytes_length, <- (map_length (fun b : byte => [b]) all_bytes).
    apply NoDup_incl_length; [apply NoDup_single_bytes|].
    intros x Hx. apply in_map_iff in Hx as (b & <- & _). apply (in_shorts ts ss _ S). split; [|eauto].
    destruct (vi_usable _ _ _ _ V) as (_ & _ & Hb). specialize (Hb b). unfold strings in Hb.
    apply in_app_iff in Hb as [Hb|Hb].
    + fold (str_tokens ts) in Hb. rewrite (str_tokens_shaped _ _ (sh_tokens _ _ S)) in Hb. exact Hb.
    + exfalso. apply in_map_iff in Hb as (q & _ & Hq).
      destruct (vi_seqs _ _ _ _ V (denotes ts q) (in_map _ _ _ Hq)) as (_ & []).
  - apply (vi_huff _ _ _ _ V eq_refl).
Qed.

Lemma base_ntokens ts : ntokens ts = base_size ts + n_long_tokens ts.
Proof. unfold base_size. pose proof (n_long_le ts). lia. Qed.

Lemma visited_single t p sp ts : visited t p sp ts -> single_strings ts.
Proof. intros V q Hq. apply (vi_seqs _ _ _ _ V (denotes ts q) (in_map _ _ _ Hq)). Qed.

Lemma visited_min t p sp ts : visited t p sp ts -> min_bytes_ext_tokens ts = lo t.
Proof. intros V. unfold min_bytes_ext_tokens. rewrite (vi_type _ _ _ _ V). reflexivity. Qed.

Lemma visited_range t p sp ts : visited t p sp ts -> seqs_in_range ts.
Proof. intros V. destruct (vi_shaped _ _ _ _ V) as (ss & S). apply (sh_range _ _ S). Qed.

Lemma visited_nonempty t p sp ts : visited t p sp ts -> seqs_nonempty ts.
Proof.
  intros V q Hq E. destruct (vi_shaped _ _ _ _ V) as (ss & S). pose proof (sh_long _ _ S q Hq) as H.
  rewrite E in H. cbn in H. lia.
Qed.

(** Long tokens are never part of a sequence. *)
Lemma long_not_in_seq t p sp ts i x : visited t p sp ts -> nth_error (tokens ts) i = Some (Str x) -> 1 < length x ->
  forall q, In q (sequences ts) -> ~ In i (seq_tokens q).
Proof.
  intros V Hi Hx q Hq Hin.
  destruct (vi_seqs _ _ _ _ V (denotes ts q) (in_map _ _ _ Hq)) as (_ & H).
  assert (G : Forall (fun o => ext_tok o \/ byte_tok o) (snd (denotes ts q))).
  { destruct t; try (destruct H; fail); destruct H as (_ & H); try exact H; (eapply Forall_impl; [|exact H]); auto. }
  rewrite Forall_forall in G. destruct (G (Some (Str x))) as [(d & E)|(b & E)]; [|discriminate|].
  - cbn [denotes snd]. rewrite <- Hi. apply in_map; exact Hin.
  - injection E as ->. cbn in Hx. lia.
Qed.

(** ** Sorting *)
Lemma Permutation_filter {A} (f : A -> bool) l l' : Permutation l l' -> Permutation (filter f l) (filter f l').
Proof.
  induction 1 as [|x l l' _ IH|x y l|l l' l'' _ IH1 _ IH2]; cbn.
  - constructor.
  - destruct (f x); [constructor|]; exact IH.
  - destruct (f x), (f y); try reflexivity. constructor.
  - rewrite IH1. exact IH2.
Qed.

Lemma n_long_perm a b : Permutation (tokens a) (tokens b) -> n_long_tokens a = n_long_tokens b.
Proof. intros H. apply Permutation_length, Permutation_filter. exact H. Qed.

Lemma visited_sort t p sp ts ts' : visited t p sp ts -> ts_sort ts = Ret ts' ->
  visited t p sp ts' /\ ntokens ts' = ntokens ts /\ n_long_tokens ts' = n_long_tokens ts.
Proof.
  intros V H. pose proof (ts_sort_sorted _ _ H) as W. destruct (vi_shaped _ _ _ _ V) as (ss & S).
  destruct (shaped_sort _ _ _ S H) as (ss' & S' & _).
  pose proof (sv_ntokens _ _ W) as E1. pose proof (n_long_perm _ _ (sv_tokens _ _ W)) as E2.
  split; [|auto]. split.
  - eauto.
  - eapply usable_perm; [apply (sv_strings _ _ W)|apply (vi_usable _ _ _ _ V)].
  - rewrite (sv_type _ _ W). apply (vi_type _ _ _ _ V).
  - rewrite (sv_proc _ _ W). apply (vi_proc _ _ _ _ V).
  - rewrite (sv_para _ _ W). apply (vi_para _ _ _ _ V).
  - intros d Hd. apply (vi_seqs _ _ _ _ V). eapply Permutation_in; [apply (sv_denotes _ _ W)|exact Hd].
  - intros Et. unfold base_size. rewrite E1, E2. apply (vi_huff _ _ _ _ V Et).
Qed.

(** ** Removing a long token *)
Lemma removelast_map {A B} (f : A -> B) l : removelast (map f l) = map f (removelast l).
Proof. induction l as [|x [|y l] IH]; cbn in *; congruence. Qed.

Lemma upd_app_r {A} (a b : list A) i f : length a <= i -> upd i f (a ++ b) = a ++ upd (i - length a) f b.
Proof.
  revert i; induction a as [|x a IH]; intros i H; cbn in *; [rewrite Nat.sub_0_r; reflexivity|].
  destruct i as [|i]; [lia|]. cbn. f_equal. apply IH. lia.
Qed.

Lemma upd_map {A B} (g : A -> B) (l : list A) i y : upd i (fun _ => g y) (map g l) = map g (upd i (fun _ => y) l).
Proof. revert i; induction l as [|x l IH]; intros [|i]; cbn; congruence. Qed.

Lemma remove_shape ts ss i x ts' : shaped ts ss -> nth_error (tokens ts) i = Some (Str x) ->
  remove_token ts i = Ret ts' ->
  exists ss', tokens ts' = map (fun i => Ext (n2b i)) (seq 0 (n_ext_tokens ts)) ++ map Str ss'.
Proof.
  intros S Hi H. unfold remove_token in H. apply assert_that_bind in H as (_ & H).
  apply bind_ret in H as (last & Hl & H). apply checked_sub_ret in Hl as (Hle & ->).
  rewrite (sh_tokens _ _ S) in *. set (E := map (fun i => Ext (n2b i)) (seq 0 (n_ext_tokens ts))) in *.
  assert (HE : length E = n_ext_tokens ts) by (unfold E; rewrite map_length, seq_length; reflexivity).
  assert (Hge : length E <= i).
  { destruct (Nat.le_gt_cases (length E) i) as [?|Hlt]; [assumption|]. exfalso.
    rewrite nth_error_app1 in Hi by exact Hlt. unfold E in Hi. rewrite nth_error_map in Hi.
    destruct (nth_error (seq 0 (n_ext_tokens ts)) i); discriminate. }
  assert (Hne : ss <> []).
  { intros ->. cbn in Hi. rewrite app_nil_r in Hi. rewrite (proj2 (nth_error_None E i)) in Hi by exact Hge. discriminate. }
  assert (Er : removelast (E ++ map Str ss) = E ++ map Str (removelast ss)).
  { rewrite removelast_app by (destruct ss; [congruence|discriminate]). rewrite removelast_map. reflexivity. }
  rewrite Er in H. destruct (i =? _).
  - injection H as <-. cbn [tokens]. eauto.
  - apply bind_ret in H as (lt & Hlt & H). apply bind_ret in H as (toks & Hu & H).
    injection H as <-. cbn [tokens]. apply idx_upd_ret in Hu as (Hu & ->).
    rewrite upd_app_r by exact Hge.
    assert (Hs : exists y, lt = Str y).
    { unfold idx in Hlt. rewrite app_length, map_length in Hlt.
      rewrite nth_error_app2 in Hlt by (destruct ss; [congruence|cbn; lia]).
      rewrite nth_error_map in Hlt. destruct (nth_error ss _) as [y|]; [|discriminate]. cbn in Hlt. injection Hlt as <-. eauto. }
    destruct Hs as (y & ->). rewrite upd_map. eauto.
Qed.

Lemma map_Str_inj a b : Permutation (map Str a) (map Str b) -> Permutation a b.
Proof.
  intros H. apply (Permutation_map (fun t => match t with Str s => s | Ext _ => [] end)) in H.
  rewrite !map_map, !map_id in H. exact H.
Qed.

Lemma denotes_strings ts : map seq_string (sequences ts) = map fst (map (denotes ts) (sequences ts)).
Proof. rewrite map_map. reflexivity. Qed.

Lemma visited_remove t p sp ts x : visited t p sp ts -> In (Str x) (tokens ts) -> 1 < length x ->
  exists i ts', find_token ts x = Some i /\ remove_token ts i = Ret ts' /\ visited t p sp ts' /\
    S (ntokens ts') = ntokens ts /\ S (n_long_tokens ts') = n_long_tokens ts.
Proof.
  intros V Hx Hl. destruct (vi_shaped _ _ _ _ V) as (ss & S).
  destruct (find_token ts x) as [i|] eqn:Ef; [|exfalso; apply (proj2 (C20_find_token ts x 0)) in Ef; contradiction].
  apply (proj1 (C20_find_token ts x i)) in Ef as (Hi & _). exists i.
  assert (Hlt : i < ntokens ts) by (apply nth_error_Some; congruence).
  destruct (remove_token_ok ts i Hlt (long_not_in_seq _ _ _ _ _ _ V Hi Hl)) as (ts' & tk & E & Ht & P & D & E1 & E2 & E3 & E4).
  rewrite Hi in Ht. injection Ht as <-.
  exists ts'. split; [reflexivity|]. split; [exact E|].
  destruct (remove_shape ts ss i x ts' S Hi E) as (ss' & Es').
  assert (Hss : Permutation ss (x :: ss')).
  { rewrite (sh_tokens _ _ S), Es' in P. apply map_Str_inj. cbn [map].
    eapply Permutation_app_inv_l. rewrite P. apply Permutation_middle. }
  assert (Hnt : Datatypes.S (ntokens ts') = ntokens ts) by (apply Permutation_length in P; cbn in P; unfold ntokens; lia).
  assert (Hnl : Datatypes.S (n_long_tokens ts') = n_long_tokens ts).
  { unfold n_long_tokens. pose proof (Permutation_length (Permutation_filter is_long _ _ P)) as Q. cbn [filter is_long] in Q.
    rewrite (proj2 (Nat.ltb_lt _ _)) in Q by exact Hl. cbn in Q. lia. }
  assert (Hstr : Permutation (strings ts) (x :: strings ts')).
  { unfold strings. rewrite (denotes_strings ts), (denotes_strings ts'), D.
    fold (str_tokens ts) (str_tokens ts').
    rewrite (str_tokens_shaped _ _ (sh_tokens _ _ S)).
    rewrite (str_tokens_shaped ts' ss') by (rewrite E1; exact Es').
    apply (Permutation_app_tail _ Hss). }
  split; [|auto]. split.
  - exists ss'. split.
    + rewrite E1. exact Es'.
    + rewrite E1, E2. apply (sh_fits _ _ S).
    + intros Hin. apply (sh_nonempty _ _ S). eapply Permutation_in; [symmetry; exact Hss|right; exact Hin].
    + pose proof (Permutation_NoDup Hss (sh_nodup _ _ S)) as N. inversion N; assumption.
    + intros q j Hq Hj.
      assert (Hd : In (denotes ts' q) (map (denotes ts) (sequences ts))) by (rewrite <- D; apply in_map; exact Hq).
      apply in_map_iff in Hd as (q0 & Ed & Hq0). injection Ed as _ Ed.
      assert (Hj' : In (nth_error (tokens ts') j) (map (nth_error (tokens ts)) (seq_tokens q0))) by (rewrite Ed; apply in_map; exact Hj).
      apply in_map_iff in Hj' as (j0 & Ej & Hj0). pose proof (sh_range _ _ S q0 j0 Hq0 Hj0) as R.
      apply nth_error_Some. rewrite <- Ej. apply nth_error_Some. exact R.
    + intros q Hq.
      assert (Hd : In (denotes ts' q) (map (denotes ts) (sequences ts))) by (rewrite <- D; apply in_map; exact Hq).
      apply in_map_iff in Hd as (q0 & Ed & Hq0). injection Ed as _ Ed.
      apply (f_equal (@length _)) in Ed. rewrite !map_length in Ed. rewrite <- Ed. apply (sh_long _ _ S q0 Hq0).
  - destruct (vi_usable _ _ _ _ V) as (U1 & U2 & U3). pose proof (Permutation_NoDup Hstr U1) as N.
    inversion N as [|? ? N1 N2]; subst. split; [exact N2|]. split.
    + intros Hin. apply U2. eapply Permutation_in; [symmetry; exact Hstr|right; exact Hin].
    + intros b. specialize (U3 b). eapply Permutation_in in U3; [|exact Hstr]. destruct U3 as [->|U3]; [cbn in Hl; lia|exact U3].
  - rewrite E2. apply (vi_type _ _ _ _ V).
  - rewrite E3. apply (vi_proc _ _ _ _ V).
  - rewrite E4. apply (vi_para _ _ _ _ V).
  - rewrite D. apply (vi_seqs _ _ _ _ V).
  - intros Et. pose proof (vi_huff _ _ _ _ V Et) as Hh. unfold base_size in *. lia.
Qed.

(** ** Adding a long token *)
Lemma visited_add t p sp ts x : visited t p sp ts -> 1 < length x -> ~ In x (strings ts) ->
  visited t p sp (add_token_unchecked ts x) /\
  ntokens (add_token_unchecked ts x) = S (ntokens ts) /\
  n_long_tokens (add_token_unchecked ts x) = S (n_long_tokens ts).
Proof.
  intros V Hl Hx. destruct (vi_shaped _ _ _ _ V) as (ss & S).
  assert (Hss : str_tokens ts = ss) by (apply str_tokens_shaped; apply (sh_tokens _ _ S)).
  assert (Hns : ~ In x ss) by (intros H; apply Hx; unfold strings; apply in_app_iff; left; fold (str_tokens ts); rewrite Hss; exact H).
  assert (Hne : x <> []) by (intros ->; cbn in Hl; lia).
  assert (Hq : sequences (add_token_unchecked ts x) = sequences ts).
  { cbn [add_token_unchecked sequences]. apply filter_id. intros q Hq. apply negb_true_iff, bstr_eqb_neq. intros E.
    pose proof (visited_single _ _ _ _ V q Hq) as H1. rewrite E in H1. lia. }
  assert (En : ntokens (add_token_unchecked ts x) = Datatypes.S (ntokens ts)).
  { unfold ntokens. cbn [add_token_unchecked tokens]. rewrite app_length. cbn. lia. }
  assert (El : n_long_tokens (add_token_unchecked ts x) = Datatypes.S (n_long_tokens ts)).
  { unfold n_long_tokens. cbn [add_token_unchecked tokens]. rewrite filter_app, app_length. cbn [filter is_long].
    rewrite (proj2 (Nat.ltb_lt _ _)) by exact Hl. cbn. lia. }
  split; [|auto]. split.
  - exists (ss ++ [x]). apply shaped_add; assumption.
  - apply usable_add; [apply (vi_usable _ _ _ _ V)|exact Hne|]. rewrite Hss. exact Hns.
  - apply (vi_type _ _ _ _ V).
  - apply (vi_proc _ _ _ _ V).
  - apply (vi_para _ _ _ _ V).
  - rewrite Hq. intros d Hd. apply in_map_iff in Hd as (q & <- & Hq0). unfold denotes.
    assert (E : map (nth_error (tokens (add_token_unchecked ts x))) (seq_tokens q) = map (nth_error (tokens ts)) (seq_tokens q)).
    { apply map_ext_in. intros j Hj. cbn [add_token_unchecked tokens]. apply nth_error_app1.
      apply (sh_range _ _ S q j Hq0 Hj). }
    rewrite E. apply (vi_seqs _ _ _ _ V). apply in_map_iff. exists q. split; [reflexivity|exact Hq0].
  - intros Et. unfold base_size. rewrite En, El. pose proof (vi_huff _ _ _ _ V Et) as Hh. unfold base_size in Hh. lia.
Qed.
