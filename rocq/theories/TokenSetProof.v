(** * Lemmas about token-set operations: constructors, add, remove, find, sort. *)
From Verif Require Import Base BaseLemmas TokenSetModel TokenizerModel TokSpec.

(** ** Constructors *)
Lemma fold_add_sequence {A} (f : A -> bstr) (g : A -> list nat) l ts :
  fold_left (fun ts c => add_sequence ts (f c) (g c)) l ts =
  mkTS (n_ext_tokens ts) (ts_type ts) (ts_processing ts) (split_paragraphs ts) (tokens ts)
       (sequences ts ++ map (fun c => mkSeq (f c) (g c)) l).
Proof.
  revert ts; induction l as [|c l IH]; intros ts; cbn.
  - rewrite app_nil_r; destruct ts; reflexivity.
  - rewrite IH; cbn. rewrite <- app_assoc; reflexivity.
Qed.

Definition ext_tokens (n : nat) : list token := map (fun i => Ext (n2b i)) (seq 0 n).

Definition bits_set (n : nat) (t : token_type) (p : processing) (sp : bool)
           (enc : nat -> list nat) : tokenset :=
  mkTS n t p sp (ext_tokens n) (map (fun c => mkSeq [n2b c] (enc c)) (seq 0 256)).

Definition enc1 (c : nat) : list nat := rev (digit_loop 8 1 1 c).
Definition enc2 (c : nat) : list nat := rev (digit_loop 4 3 2 c).
Definition enc4 (c : nat) : list nat := [Nat.shiftr c 4; Nat.land c 15].

Lemma new_bits1_eq p sp : new_bits1 p sp = bits_set 2 Bits1 p sp enc1.
Proof. unfold new_bits1. rewrite (fold_add_sequence (fun c => [n2b c]) enc1). reflexivity. Qed.
Lemma new_bits2_eq p sp : new_bits2 p sp = bits_set 4 Bits2 p sp enc2.
Proof. unfold new_bits2. rewrite (fold_add_sequence (fun c => [n2b c]) enc2). reflexivity. Qed.
Lemma new_bits4_eq p sp : new_bits4 p sp = bits_set 16 Bits4 p sp enc4.
Proof. unfold new_bits4. rewrite (fold_add_sequence (fun c => [n2b c]) enc4). reflexivity. Qed.

Lemma str_of_ext n :
  flat_map (fun t => match t with Str s => [s] | Ext _ => [] end) (ext_tokens n) = [].
Proof. unfold ext_tokens. induction (seq 0 n); cbn; auto. Qed.

Lemma map_single_all_bytes : map (fun c => [n2b c]) (seq 0 256) = map (fun b => [b]) all_bytes.
Proof. unfold all_bytes. rewrite map_map. reflexivity. Qed.

Lemma NoDup_single_bytes : NoDup (map (fun b : byte => [b]) all_bytes).
Proof.
  apply FinFun.Injective_map_NoDup; [|apply NoDup_all_bytes].
  intros a b H; injection H; auto.
Qed.

Lemma strings_bits_set n t p sp enc :
  strings (bits_set n t p sp enc) = map (fun b => [b]) all_bytes.
Proof.
  unfold strings, bits_set; cbn [tokens sequences]. rewrite str_of_ext. cbn [app].
  rewrite map_map. cbn [seq_string]. apply map_single_all_bytes.
Qed.

Lemma strings_single_usable ts :
  Permutation (strings ts) (map (fun b => [b]) all_bytes) -> usable ts.
Proof.
  intros H. split; [|split].
  - eapply Permutation_NoDup; [apply Permutation_sym; exact H|apply NoDup_single_bytes].
  - intros Hin. apply (Permutation_in _ H) in Hin. apply in_map_iff in Hin as (b & E & _). discriminate.
  - intros b. apply (Permutation_in _ (Permutation_sym H)). apply in_map_iff.
    exists b; split; [reflexivity|apply in_all_bytes].
Qed.

Lemma usable_bits_set n t p sp enc : usable (bits_set n t p sp enc).
Proof. apply strings_single_usable. rewrite strings_bits_set. apply Permutation_refl. Qed.

Lemma ntokens_bits_set n t p sp enc : ntokens (bits_set n t p sp enc) = n.
Proof.
  unfold ntokens, bits_set, ext_tokens; cbn [tokens]. rewrite map_length, seq_length; reflexivity.
Qed.

(** All digits of an encoding are digits. *)
Lemma digit_loop_bound k shift rem : Forall (fun d => d < 2 ^ shift) (digit_loop k (2 ^ shift - 1) shift rem).
Proof.
  revert rem; induction k as [|k IH]; intros rem; cbn; constructor; [|apply IH].
  replace (2 ^ shift - 1) with (Nat.ones shift) by (rewrite Nat.ones_equiv; lia).
  rewrite Nat.land_ones. apply Nat.mod_upper_bound. apply Nat.pow_nonzero; lia.
Qed.

Lemma enc1_bound c d : In d (enc1 c) -> d < 2.
Proof.
  unfold enc1. rewrite <- in_rev. intros H.
  pose proof (digit_loop_bound 8 1 c) as HF. rewrite Forall_forall in HF. apply (HF d H).
Qed.
Lemma enc2_bound c d : In d (enc2 c) -> d < 4.
Proof.
  unfold enc2. rewrite <- in_rev. intros H.
  pose proof (digit_loop_bound 4 2 c) as HF. rewrite Forall_forall in HF. apply (HF d H).
Qed.
Lemma enc4_bound c d : c < 256 -> In d (enc4 c) -> d < 16.
Proof.
  unfold enc4. intros Hc [<-|[<-|[]]].
  - rewrite Nat.shiftr_div_pow2. apply Nat.div_lt_upper_bound; cbn; lia.
  - change 15 with (Nat.ones 4). rewrite Nat.land_ones. apply Nat.mod_upper_bound; cbn; lia.
Qed.

Lemma seqs_bits_set n t p sp enc :
  (forall c d, c < 256 -> In d (enc c) -> d < n) -> seqs_in_range (bits_set n t p sp enc).
Proof.
  intros H q d Hq Hd. rewrite ntokens_bits_set. cbn in Hq.
  apply (in_map_iff (fun c => mkSeq [n2b c] (enc c)) (seq 0 256)) in Hq as (c & <- & Hc).
  apply in_seq in Hc. cbn in Hd. eapply H; [|exact Hd]. lia.
Qed.

(** [new_bytes] *)
Lemma fold_add_token l ts : sequences ts = [] ->
  fold_left (fun ts c => add_token_unchecked ts [n2b c]) l ts =
  mkTS (n_ext_tokens ts) (ts_type ts) (ts_processing ts) (split_paragraphs ts)
       (tokens ts ++ map (fun c => Str [n2b c]) l) [].
Proof.
  revert ts; induction l as [|c l IH]; intros ts Hs; cbn.
  - rewrite app_nil_r. destruct ts; cbn in *; subst; reflexivity.
  - rewrite IH; cbn; [|rewrite Hs; reflexivity]. rewrite <- app_assoc; reflexivity.
Qed.

Definition bytes_set (p : processing) : tokenset :=
  mkTS 0 Bytes p true (map (fun c => Str [n2b c]) (seq 0 256)) [].

Lemma new_bytes_eq p : new_bytes p = bytes_set p.
Proof. unfold new_bytes. rewrite fold_add_token by reflexivity. reflexivity. Qed.

Lemma strings_bytes_set p : strings (bytes_set p) = map (fun b => [b]) all_bytes.
Proof.
  unfold strings, bytes_set; cbn [tokens sequences]. rewrite app_nil_r.
  rewrite <- map_single_all_bytes. induction (seq 0 256) as [|c l IH]; cbn; [reflexivity|].
  f_equal; exact IH.
Qed.

Lemma usable_bytes_set p : usable (bytes_set p).
Proof. apply strings_single_usable. rewrite strings_bytes_set. apply Permutation_refl. Qed.

(** ** add_token *)
Definition str_tokens (ts : tokenset) : list bstr :=
  flat_map (fun t => match t with Str s => [s] | Ext _ => [] end) (tokens ts).

Lemma in_str_tokens ts s : In s (str_tokens ts) <-> In (Str s) (tokens ts).
Proof.
  unfold str_tokens. rewrite in_flat_map. split.
  - intros ([x|n] & Hin & H); [|destruct H]. destruct H as [<-|[]]; exact Hin.
  - intros H. exists (Str s). split; [exact H|left; reflexivity].
Qed.

Lemma str_tokens_bits_set n t p sp enc : str_tokens (bits_set n t p sp enc) = [].
Proof. apply str_of_ext. Qed.

Lemma str_tokens_add ts s : str_tokens (add_token_unchecked ts s) = str_tokens ts ++ [s].
Proof. unfold str_tokens; cbn. rewrite flat_map_app; reflexivity. Qed.

Lemma in_strings_add ts s x :
  In x (strings (add_token_unchecked ts s)) <-> In x (strings ts) \/ x = s.
Proof.
  unfold strings. fold (str_tokens (add_token_unchecked ts s)) (str_tokens ts).
  rewrite str_tokens_add, !in_app_iff. cbn [add_token_unchecked sequences In].
  split.
  - intros [[H|[<-|[]]]|H]; auto.
    apply in_map_iff in H as (q & <- & Hq). apply filter_In in Hq as (Hq & _).
    left; right; apply in_map; exact Hq.
  - intros [[H|H]| ->]; auto.
    apply in_map_iff in H as (q & <- & Hq).
    destruct (bstr_eqb_spec (seq_string q) s) as [->|Hne]; [auto|].
    right. apply in_map, filter_In. split; [exact Hq|].
    apply negb_true_iff, bstr_eqb_neq; exact Hne.
Qed.

Lemma NoDup_app_iff {A} (l1 l2 : list A) :
  NoDup (l1 ++ l2) <-> NoDup l1 /\ NoDup l2 /\ (forall x, In x l1 -> ~ In x l2).
Proof.
  induction l1 as [|a l1 IH]; cbn.
  - split; [intros H; repeat split; [constructor|exact H|auto]|tauto].
  - rewrite !NoDup_cons_iff, IH, in_app_iff. split.
    + intros (H1 & H2 & H3 & H4). repeat split; auto.
      intros x [<-|Hx]; auto.
    + intros ((H1 & H2) & H3 & H4). repeat split; auto. intros [H|H]; auto. eapply H4; eauto.
Qed.

Lemma usable_add ts s :
  usable ts -> s <> [] -> ~ In s (str_tokens ts) -> usable (add_token_unchecked ts s).
Proof.
  intros (Hnd & Hne & Hb) Hs Hin. split; [|split].
  - unfold strings in *. fold (str_tokens (add_token_unchecked ts s)).
    fold (str_tokens ts) in Hnd. rewrite str_tokens_add. cbn [add_token_unchecked sequences].
    apply NoDup_app_iff in Hnd as (H1 & H2 & H3). apply NoDup_app_iff. split; [|split].
    + apply NoDup_app_iff. split; [exact H1|]. split; [repeat constructor; auto|].
      intros x Hx [<-|[]]; auto.
    + clear - H2. induction (sequences ts) as [|q l IH]; cbn; [constructor|].
      inversion H2 as [|? ? Hq Hl]; subst.
      destruct (negb (bstr_eqb (seq_string q) s)); cbn; [|apply IH; exact Hl].
      constructor; [|apply IH; exact Hl]. intros Hi. apply Hq.
      apply in_map_iff in Hi as (q' & E & Hq'). apply filter_In in Hq' as (Hq' & _). rewrite <- E.
      apply in_map; exact Hq'.
    + intros x Hx Hx2. apply in_map_iff in Hx2 as (q & <- & Hq).
      apply filter_In in Hq as (Hq & Hf). apply negb_true_iff, bstr_eqb_neq in Hf.
      apply in_app_iff in Hx as [Hx|[E|[]]]; [|congruence].
      apply (H3 _ Hx). apply in_map; exact Hq.
  - rewrite in_strings_add. intros [H|H]; [exact (Hne H)|apply Hs; symmetry; exact H].
  - intros b. rewrite in_strings_add. left; apply Hb.
Qed.

Lemma seqs_in_range_add ts s : seqs_in_range ts -> seqs_in_range (add_token_unchecked ts s).
Proof.
  intros H q t Hq Ht. cbn in Hq. apply filter_In in Hq as (Hq & _).
  specialize (H q t Hq Ht). unfold ntokens in *; cbn. rewrite app_length; cbn; lia.
Qed.

Lemma matches_new ts init : matches ts (stats_new ts init).
Proof. unfold matches, stats_new, ntokens; cbn. rewrite !repeat_length. auto. Qed.
