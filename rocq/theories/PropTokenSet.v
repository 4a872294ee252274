(** * Properties C08 (sorting), C17-C21, C25: token sets. *)
From Coq Require Import String.
From Verif Require Import Base BaseLemmas TokenSetModel TokenizerModel TokSpec
  SortLemmas TokenSetProof TokenizerTheory TokenSetProof2 TokenizerProof1 PropTokenizer.
Local Open Scope list_scope.
Local Notation length := List.length.

(** ** Specification: orders *)

(** [lex x y]: [x] comes strictly before [y] in byte order. *)
Inductive lex : bstr -> bstr -> Prop :=
| lex_nil b y : lex [] (b :: y)
| lex_lt a b x y : b2n a < b2n b -> lex (a :: x) (b :: y)
| lex_eq a x y : lex x y -> lex (a :: x) (a :: y).

(** Extension tokens by number, then string tokens in byte order. *)
Inductive tok_before : token -> token -> Prop :=
| tb_ext d e : b2n d < b2n e -> tok_before (Ext d) (Ext e)
| tb_mixed d s : tok_before (Ext d) (Str s)
| tb_str x y : lex x y -> tok_before (Str x) (Str y).

Lemma bstr_cmp_lex x y : bstr_cmp x y = Lt <-> lex x y.
Proof.
  split.
  - revert y; induction x as [|a x IH]; intros [|b y] H; cbn in H; try discriminate; [constructor|].
    destruct (Nat.compare_spec (b2n a) (b2n b)) as [E|E|E]; try discriminate.
    + apply b2n_inj in E as ->. apply lex_eq. auto.
    + apply lex_lt; exact E.
  - induction 1 as [| |a x y H IH]; cbn; [reflexivity| |rewrite Nat.compare_refl; exact IH].
    rewrite (proj2 (Nat.compare_lt_iff _ _)) by assumption. reflexivity.
Qed.

Lemma bstr_leb_lex x y : cmp_leb (bstr_cmp x y) = true <-> x = y \/ lex x y.
Proof.
  destruct (bstr_cmp x y) eqn:E; cbn.
  - split; [left; apply bstr_cmp_eq; exact E|auto].
  - split; [right; apply bstr_cmp_lex; exact E|auto].
  - split; [discriminate|]. intros [->|H].
    + rewrite (proj2 (bstr_cmp_eq y y) eq_refl) in E; discriminate.
    + apply bstr_cmp_lex in H; congruence.
Qed.

Lemma tok_leb_before x y : tok_leb x y = true <-> x = y \/ tok_before x y.
Proof.
  unfold tok_leb. destruct x as [x|d], y as [y|e]; cbn [token_cmp].
  - rewrite bstr_leb_lex. split; (intros [H|H]; [left; congruence|right]).
    + constructor; exact H.
    + inversion H; assumption.
  - split; [discriminate|]. intros [H|H]; [discriminate|inversion H].
  - split; [right; constructor|auto].
  - rewrite nat_cmp_leb, Nat.leb_le. split.
    + intros H. apply Nat.le_lteq in H as [H|H]; [right; constructor; exact H|].
      left. apply b2n_inj in H; congruence.
    + intros [H|H]; [injection H as ->; lia|]. inversion H; subst; lia.
Qed.

Lemma StronglySorted_impl {A} (P Q : A -> A -> Prop) l :
  (forall a b, P a b -> Q a b) -> StronglySorted P l -> StronglySorted Q l.
Proof. intros H. induction 1; constructor; auto.
  eapply Forall_impl; [|eassumption]. auto. Qed.

(** Two token sets with the same content: settings equal, tokens equal up to
    order, sequences equal up to order, each sequence listed with the tokens
    (not the indices) it stands for. *)
Definition same_content (a b : tokenset) : Prop :=
  n_ext_tokens a = n_ext_tokens b /\ ts_type a = ts_type b /\
  ts_processing a = ts_processing b /\ split_paragraphs a = split_paragraphs b /\
  Permutation (tokens a) (tokens b) /\
  Permutation (map (fun q => (seq_string q, map (nth_error (tokens a)) (seq_tokens q))) (sequences a))
              (map (fun q => (seq_string q, map (nth_error (tokens b)) (seq_tokens q))) (sequences b)).

(** ** C21 *)
Theorem C21_sort_succeeds_iff : forall ts,
  (exists ts', ts_sort ts = Ret ts') <-> seqs_in_range ts.
Proof.
  intros ts. split; [intros (ts' & H); eapply ts_sort_in_range; exact H|apply ts_sort_total].
Qed.

Theorem C21_sort_correct : forall ts ts', ts_sort ts = Ret ts' ->
  same_content ts' ts /\
  StronglySorted (fun a b => a = b \/ tok_before a b) (tokens ts') /\
  StronglySorted (fun a b => seq_string a = seq_string b \/ lex (seq_string a) (seq_string b))
                 (sequences ts').
Proof.
  intros ts ts' H. apply ts_sort_sorted in H as V. split; [|split].
  - destruct V as [V1 V2 V3 V4 V5 V6 V7 V8]. repeat split; auto.
  - eapply StronglySorted_impl; [|apply (sv_tok_sorted _ _ V)]. intros a b. apply tok_leb_before.
  - eapply StronglySorted_impl; [|apply (sv_seq_sorted _ _ V)]. intros a b. apply bstr_leb_lex.
Qed.

Theorem C21_sort_idempotent : forall ts ts', ts_sort ts = Ret ts' -> ts_sort ts' = Ret ts'.
Proof. exact ts_sort_idempotent. Qed.

Theorem C21_sort_canonical : forall a b a' b',
  NoDup (tokens a) -> NoDup (map seq_string (sequences a)) -> same_content a b ->
  ts_sort a = Ret a' -> ts_sort b = Ret b' -> a' = b'.
Proof.
  intros a b a' b' Hn Hs (H1 & H2 & H3 & H4 & H5 & H6) Ha Hb.
  pose proof (ts_sort_canonical a b a' Hn Hs H1 H2 H3 H4 H5 H6 Ha) as E. congruence.
Qed.

(** A token set out of order, with a sequence whose indices must be renamed. *)
Definition unsorted : tokenset :=
  mkTS 2 Bits1 Raw false [Str [x62]; Ext x01; Str [x61; x63]; Ext x00]
       [mkSeq [x7a] [3; 1]; mkSeq [x61] [1; 1]].
Example C21_example : ts_sort unsorted =
  Ret (mkTS 2 Bits1 Raw false [Ext x00; Ext x01; Str [x61; x63]; Str [x62]]
       [mkSeq [x61] [1; 1]; mkSeq [x7a] [0; 1]]).
Proof. reflexivity. Qed.

(** ** C08 for sorting: the sorted set gives the same totals. *)
Theorem C08_sorting_keeps_total : forall ts ts' tk tk' text s s' buffer buffer' r r' b b',
  ts_sort ts = Ret ts' -> tokenizer_new ts = Ret tk -> tokenizer_new ts' = Ret tk' ->
  matches ts s -> matches ts' s' -> total_tokens s = total_tokens s' ->
  process_slice tk text s buffer = Ret (r, b) -> process_slice tk' text s' buffer' = Ret (r', b') ->
  total_tokens r = total_tokens r'.
Proof.
  intros ts ts' tk tk' text s s' buffer buffer' r r' b b' Hs Htk Htk' Hm Hm' Es E E'.
  pose proof (ts_sort_sorted _ _ Hs) as V. pose proof (ts_sort_in_range _ _ Hs) as Hr.
  destruct (total_is_min _ _ _ _ _ _ _ Htk Hr Hm E) as (M1 & L1).
  destruct (total_is_min _ _ _ _ _ _ _ Htk' (sv_in_range _ _ Hr V) Hm' E') as (M2 & L2).
  pose proof (same_dict_min ts ts' text _ _ (sv_same_dict _ _ V) M1 M2). lia.
Qed.

Theorem C08_sorting_keeps_usability : forall ts ts', ts_sort ts = Ret ts' ->
  ((exists tk, tokenizer_new ts = Ret tk) <-> (exists tk, tokenizer_new ts' = Ret tk)).
Proof.
  intros ts ts' H. rewrite !C01_tokenizer_exists_iff_usable.
  pose proof (sv_strings _ _ (ts_sort_sorted _ _ H)) as Hp.
  split; apply usable_perm; [exact Hp|apply Permutation_sym; exact Hp].
Qed.

(** ** C18 *)
Theorem C18_add_token : forall ts s,
  (s = [] -> add_token ts s = Panic) /\
  (s <> [] -> exists ts' i, add_token ts s = Ret (ts', i) /\
     tokens ts' = tokens ts ++ [Str s] /\ i = length (tokens ts) /\
     nth_error (tokens ts') i = Some (Str s) /\
     (forall q, In q (sequences ts') <-> In q (sequences ts) /\ seq_string q <> s) /\
     (exists p, (forall q, p q = true <-> seq_string q <> s) /\
                sequences ts' = filter p (sequences ts)) /\
     n_ext_tokens ts' = n_ext_tokens ts /\ ts_type ts' = ts_type ts /\
     ts_processing ts' = ts_processing ts /\ split_paragraphs ts' = split_paragraphs ts).
Proof.
  intros ts s. split.
  - intros ->. reflexivity.
  - intros Hs. exists (add_token_unchecked ts s), (length (tokens ts)).
    assert (Hp : forall q, negb (bstr_eqb (seq_string q) s) = true <-> seq_string q <> s).
    { intros q. rewrite negb_true_iff, bstr_eqb_neq. reflexivity. }
    split; [|split; [reflexivity|split; [reflexivity|split; [|split; [|split; [|auto]]]]]].
    + unfold add_token. rewrite (proj2 (bstr_eqb_neq s [])) by exact Hs. reflexivity.
    + cbn. rewrite nth_error_app2, Nat.sub_diag by lia. reflexivity.
    + intros q. cbn. rewrite filter_In, Hp. reflexivity.
    + exists (fun q => negb (bstr_eqb (seq_string q) s)). split; [exact Hp|reflexivity].
Qed.

Example C18_example : add_token unsorted [x61] =
  Ret (mkTS 2 Bits1 Raw false [Str [x62]; Ext x01; Str [x61; x63]; Ext x00; Str [x61]]
         [mkSeq [x7a] [3; 1]], 4).
Proof. reflexivity. Qed.

(** ** C19 *)
Theorem C19_remove_token_iff : forall ts i,
  (exists ts', remove_token ts i = Ret ts') <->
  i < ntokens ts /\ forall q, In q (sequences ts) -> ~ In i (seq_tokens q).
Proof.
  intros ts i. split.
  - intros (ts' & H). eapply remove_token_inv; exact H.
  - intros (H1 & H2). destruct (remove_token_ok ts i H1 H2) as (ts' & _ & H & _). eauto.
Qed.

Theorem C19_remove_token_otherwise_panics : forall ts i,
  ~ (i < ntokens ts /\ forall q, In q (sequences ts) -> ~ In i (seq_tokens q)) ->
  remove_token ts i = Panic.
Proof.
  intros ts i H. destruct (remove_token ts i) as [ts'| |] eqn:E; [|reflexivity|].
  - exfalso; apply H. eapply remove_token_inv; exact E.
  - exfalso. revert E. unfold remove_token, assert_that. destruct (forallb _ _); [|discriminate].
    cbn [bind]. unfold checked_sub. destruct (1 <=? _); [|discriminate]. cbn [bind].
    destruct (i =? _); [discriminate|]. unfold idx.
    destruct (nth_error _ _); [|discriminate]. cbn [unwrap bind].
    unfold idx_upd. destruct (i <? _); discriminate.
Qed.

Theorem C19_remove_token_keeps_rest : forall ts i ts', remove_token ts i = Ret ts' ->
  exists t, nth_error (tokens ts) i = Some t /\ Permutation (tokens ts) (t :: tokens ts') /\
    map (fun q => (seq_string q, map (nth_error (tokens ts')) (seq_tokens q))) (sequences ts')
    = map (fun q => (seq_string q, map (nth_error (tokens ts)) (seq_tokens q))) (sequences ts) /\
    n_ext_tokens ts' = n_ext_tokens ts /\ ts_type ts' = ts_type ts /\
    ts_processing ts' = ts_processing ts /\ split_paragraphs ts' = split_paragraphs ts.
Proof.
  intros ts i ts' H. destruct (remove_token_inv _ _ _ H) as (H1 & H2).
  destruct (remove_token_ok ts i H1 H2) as (ts2 & t & E & Ht & Hp & Hd & Hrest).
  rewrite H in E; injection E as <-. exists t. auto.
Qed.

(** Removing "b" at index 0 moves the last token; the sequences follow it. *)
Example C19_example : remove_token unsorted 0 =
  Ret (mkTS 2 Bits1 Raw false [Ext x00; Ext x01; Str [x61; x63]]
         [mkSeq [x7a] [0; 1]; mkSeq [x61] [1; 1]]).
Proof. reflexivity. Qed.
Example C19_panics : remove_token unsorted 1 = Panic /\ remove_token unsorted 4 = Panic.
Proof. split; reflexivity. Qed.

(** Adding a fresh string and removing it again gives the same tokens. *)
Theorem C19_add_then_remove : forall ts s ts' i,
  seqs_in_range ts -> add_token ts s = Ret (ts', i) ->
  exists ts2, remove_token ts' i = Ret ts2 /\ tokens ts2 = tokens ts /\
    (forall q, In q (sequences ts2) <-> In q (sequences ts) /\ seq_string q <> s).
Proof.
  intros ts s ts' i Hr H. unfold add_token in H. apply assert_that_bind in H as (Hs & H).
  injection H as <- <-. unfold remove_token.
  assert (Hf : forallb (fun q => negb (existsb (Nat.eqb (length (tokens ts))) (seq_tokens q)))
                 (sequences (add_token_unchecked ts s)) = true).
  { apply forallb_forall. intros q Hq. cbn in Hq. apply filter_In in Hq as (Hq & _).
    apply negb_true_iff, not_true_iff_false. intros E. apply existsb_exists in E as (t & Ht & E).
    apply Nat.eqb_eq in E. specialize (Hr q t Hq Ht). unfold ntokens in Hr. lia. }
  rewrite Hf; cbn [assert_that bind]. cbn [add_token_unchecked tokens].
  rewrite app_length. cbn [Datatypes.length]. rewrite checked_sub_le by lia. cbn [bind].
  replace (length (tokens ts) + 1 - 1) with (length (tokens ts)) by lia.
  rewrite Nat.eqb_refl. eexists. split; [reflexivity|]. cbn. rewrite removelast_last.
  split; [reflexivity|]. intros q. rewrite filter_In, negb_true_iff, bstr_eqb_neq. reflexivity.
Qed.

(** ** C20 *)
Theorem C20_find_token : forall ts s i,
  (find_token ts s = Some i <->
     nth_error (tokens ts) i = Some (Str s) /\
     forall j, j < i -> nth_error (tokens ts) j <> Some (Str s)) /\
  (find_token ts s = None <-> ~ In (Str s) (tokens ts)).
Proof.
  intros ts s i. unfold find_token.
  assert (Hp : forall t, (match t with Str x => bstr_eqb x s | Ext _ => false end) = true <-> t = Str s).
  { intros [x|n]; [rewrite bstr_eqb_eq|]; split; congruence. }
  split.
  - rewrite position_Some. split.
    + intros ((x & Hx & E) & Hn). apply Hp in E as ->. split; [exact Hx|].
      intros j Hj E. specialize (Hn j _ Hj E). cbn in Hn. rewrite bstr_eqb_refl in Hn; discriminate.
    + intros (H & Hn). split; [exists (Str s); split; [exact H|apply bstr_eqb_refl]|].
      intros j y Hj Hy. apply not_true_iff_false. intros E. apply Hp in E as ->. exact (Hn j Hj Hy).
  - rewrite position_None. split.
    + intros H Hin. specialize (H _ Hin). cbn in H. rewrite bstr_eqb_refl in H; discriminate.
    + intros H x Hx. apply not_true_iff_false. intros E. apply Hp in E as ->. auto.
Qed.

Example C20_example : find_token unsorted [x61; x63] = Some 2 /\ find_token unsorted [x61] = None.
Proof. split; reflexivity. Qed.

(** ** C25 *)
Theorem C25_name_identifies : forall a b,
  ts_name a = ts_name b <->
  ntokens a = ntokens b /\ ts_processing a = ts_processing b /\ ts_type a = ts_type b.
Proof.
  intros a b. split; [apply ts_name_inj|]. unfold ts_name. intros (-> & -> & ->). reflexivity.
Qed.

Example C25_example : ts_name unsorted = "tokens4_raw_bits1"%string.
Proof. reflexivity. Qed.

(** ** C17: decoding bit-fallback token sets.

    The decoder of the specification reads tokens from left to right.  A
    string token stands for its string; extension tokens are digits in base
    [base], most significant first, [k] of them make one byte. *)
Definition digits_value (base : nat) (ds : list nat) : nat :=
  fold_left (fun v d => v * base + d) ds 0.

Fixpoint decode (base k : nat) (toks : list token) (pending : list nat) : option bstr :=
  match toks with
  | [] => match pending with [] => Some [] | _ => None end
  | Str s :: r =>
      match pending with [] => option_map (app s) (decode base k r []) | _ => None end
  | Ext d :: r =>
      let p := pending ++ [b2n d] in
      if length p =? k then option_map (cons (n2b (digits_value base p))) (decode base k r [])
      else decode base k r p
  end.

(** The three kinds of bit fallback: a fresh set, its base, digits per byte. *)
Inductive bit_fallback (p : processing) (sp : bool) : tokenset -> nat -> nat -> Prop :=
| bf1 : bit_fallback p sp (new_bits1 p sp) 2 8
| bf2 : bit_fallback p sp (new_bits2 p sp) 4 4
| bf4 : bit_fallback p sp (new_bits4 p sp) 16 2.

Lemma digits_value_snoc base ds d : digits_value base (ds ++ [d]) = digits_value base ds * base + d.
Proof. unfold digits_value. rewrite fold_left_app. reflexivity. Qed.

Lemma digit_loop_value k shift : forall rem, rem < 2 ^ (k * shift) ->
  digits_value (2 ^ shift) (rev (digit_loop k (2 ^ shift - 1) shift rem)) = rem.
Proof.
  induction k as [|k IH]; intros rem H; cbn [digit_loop rev].
  - cbn in H. unfold digits_value; cbn. lia.
  - rewrite digits_value_snoc.
    assert (Hp : 2 ^ shift <> 0) by (apply Nat.pow_nonzero; lia).
    replace (2 ^ shift - 1) with (Nat.ones shift) by (rewrite Nat.ones_equiv; lia).
    rewrite Nat.land_ones, Nat.shiftr_div_pow2.
    replace (Nat.ones shift) with (2 ^ shift - 1) by (rewrite Nat.ones_equiv; lia).
    rewrite IH.
    + rewrite (Nat.mul_comm (rem / 2 ^ shift)). symmetry. apply Nat.div_mod; exact Hp.
    + apply Nat.div_lt_upper_bound; [exact Hp|]. rewrite <- Nat.pow_add_r.
      replace (shift + k * shift) with (S k * shift) by lia. exact H.
Qed.

Lemma digit_loop_length k mask shift rem : length (digit_loop k mask shift rem) = k.
Proof. revert rem; induction k; intros; cbn; auto. Qed.

Record good_enc (base k : nat) (enc : nat -> list nat) : Prop := {
  ge_len : forall c, length (enc c) = k;
  ge_bound : forall c d, c < 256 -> In d (enc c) -> d < base;
  ge_value : forall c, c < 256 -> digits_value base (enc c) = c }.

Lemma good_enc1 : good_enc 2 8 enc1.
Proof.
  constructor.
  - intros c. unfold enc1. rewrite rev_length. apply digit_loop_length.
  - intros c d _. apply enc1_bound.
  - intros c Hc. apply (digit_loop_value 8 1 c). cbn; lia.
Qed.
Lemma good_enc2 : good_enc 4 4 enc2.
Proof.
  constructor.
  - intros c. unfold enc2. rewrite rev_length. apply digit_loop_length.
  - intros c d _. apply enc2_bound.
  - intros c Hc. apply (digit_loop_value 4 2 c). cbn; lia.
Qed.
Lemma good_enc4 : good_enc 16 2 enc4.
Proof.
  constructor.
  - reflexivity.
  - exact enc4_bound.
  - intros c Hc. unfold enc4, digits_value. cbn [fold_left].
    rewrite Nat.shiftr_div_pow2. change 15 with (Nat.ones 4). rewrite Nat.land_ones.
    change (2 ^ 4) with 16. rewrite Nat.add_0_l, (Nat.mul_comm (c / 16)).
    symmetry. apply Nat.div_mod. discriminate.
Qed.

Lemma bit_fallback_inv p sp ts base k : bit_fallback p sp ts base k ->
  exists t enc, ts = bits_set base t p sp enc /\ good_enc base k enc /\ base <= 256 /\ 1 <= k.
Proof.
  intros H. inversion H; subst.
  - exists Bits1, enc1. split; [apply new_bits1_eq|]. split; [apply good_enc1|lia].
  - exists Bits2, enc2. split; [apply new_bits2_eq|]. split; [apply good_enc2|lia].
  - exists Bits4, enc4. split; [apply new_bits4_eq|]. split; [apply good_enc4|lia].
Qed.

Lemma bits_set_fields n t p sp enc :
  n_ext_tokens (bits_set n t p sp enc) = n /\ tokens (bits_set n t p sp enc) = ext_tokens n /\
  sequences (bits_set n t p sp enc) = map (fun c => mkSeq [n2b c] (enc c)) (seq 0 256).
Proof. auto. Qed.

Lemma in_bits_seqs enc q : In q (map (fun c => mkSeq [n2b c] (enc c)) (seq 0 256)) <->
  exists b, q = mkSeq [b] (enc (b2n b)).
Proof.
  rewrite in_map_iff. split.
  - intros (c & <- & Hc). apply in_seq in Hc. exists (n2b c). rewrite b2n_n2b_small by (destruct Hc; assumption). reflexivity.
  - intros (b & ->). exists (b2n b). rewrite n2b_b2n. split; [reflexivity|].
    apply in_seq. pose proof (b2n_lt b). lia.
Qed.

Theorem C17_fresh_encodings : forall p sp ts base k, bit_fallback p sp ts base k ->
  n_ext_tokens ts = base /\
  (forall i, nth_error (tokens ts) i = if i <? base then Some (Ext (n2b i)) else None) /\
  length (sequences ts) = 256 /\
  forall b, exists ds, length ds = k /\ Forall (fun d => d < base) ds /\
    digits_value base ds = b2n b /\
    forall q, In q (sequences ts) -> (seq_string q = [b] <-> q = mkSeq [b] ds).
Proof.
  intros p sp ts base k H. apply bit_fallback_inv in H as (t & enc & -> & He & Hb & _).
  destruct (bits_set_fields base t p sp enc) as (E1 & E2 & E3). rewrite E2, E3.
  generalize (bits_set base t p sp enc), E1. clear E2 E3 E1. intros ts E1.
  split; [exact E1|]. split; [|split].
  - intros i. unfold ext_tokens. rewrite nth_error_map. destruct (Nat.ltb_spec i base) as [Hi|Hi].
    + rewrite nth_error_seq0 by exact Hi. reflexivity.
    + rewrite (proj2 (nth_error_None _ _)) by (rewrite seq_length; exact Hi). reflexivity.
  - rewrite map_length, seq_length. reflexivity.
  - intros b. exists (enc (b2n b)). split; [apply (ge_len _ _ _ He)|]. split; [|split].
    + apply Forall_forall. intros d. apply (ge_bound _ _ _ He), b2n_lt.
    + apply (ge_value _ _ _ He), b2n_lt.
    + intros q Hq. apply in_bits_seqs in Hq as (b' & ->). cbn. split; intros E; [|congruence].
      injection E as ->. reflexivity.
Qed.

(** Decoding *)
Lemma decode_digits base k r : forall ds pending,
  length pending + length ds = k -> ds <> [] -> Forall (fun d => d < 256) ds ->
  decode base k (map (fun d => Ext (n2b d)) ds ++ r) pending
  = option_map (cons (n2b (digits_value base (pending ++ ds)))) (decode base k r []).
Proof.
  induction ds as [|d ds IH]; intros pending Hl Hne Hf; [congruence|].
  inversion Hf; subst. cbn [map app decode]. rewrite b2n_n2b_small by assumption.
  destruct ds as [|d2 ds].
  - rewrite app_length; cbn [Datatypes.length map app]. rewrite Nat.eqb_refl. reflexivity.
  - rewrite app_length; cbn [Datatypes.length].
    replace (length pending + 1 =? length pending + S (S (length ds))) with false
      by (symmetry; apply Nat.eqb_neq; lia).
    rewrite IH; [rewrite <- app_assoc; reflexivity| |discriminate|assumption].
    rewrite app_length; cbn. lia.
Qed.

Lemma segments_decode base k enc ts text ps :
  good_enc base k enc -> base <= 256 -> 1 <= k ->
  (forall i, i < base -> nth_error (tokens ts) i = Some (Ext (n2b i))) ->
  (forall q, In q (sequences ts) -> exists b, q = mkSeq [b] (enc (b2n b))) ->
  segments ts ps text ->
  exists toks, map (nth_error (tokens ts)) (stream ts ps) = map Some toks /\
    decode base k toks [] = Some text.
Proof.
  intros He Hb Hk Ht Hq. induction 1 as [|pc ps s r Hp _ IH].
  - exists []. auto.
  - destruct IH as (toks & E & D). unfold stream in *; cbn [flat_map].
    destruct pc as [i|i]; cbn [piece_string piece_tokens] in *.
    + destruct (nth_error (tokens ts) i) as [[x|n]|] eqn:Ei; try discriminate. injection Hp as ->.
      exists (Str s :: toks). cbn. rewrite Ei, E, D. auto.
    + destruct (nth_error (sequences ts) i) as [q|] eqn:Ei; [|discriminate]. injection Hp as <-.
      destruct (Hq q (nth_error_In _ _ Ei)) as (b & ->). cbn [seq_string seq_tokens].
      exists (map (fun d => Ext (n2b d)) (enc (b2n b)) ++ toks). rewrite !map_app, E. split.
      * f_equal. rewrite map_map. apply map_ext_in. intros d Hd.
        apply Ht. eapply (ge_bound _ _ _ He); [apply b2n_lt|exact Hd].
      * rewrite decode_digits, D.
        -- cbn [app option_map]. rewrite (ge_value _ _ _ He) by apply b2n_lt. rewrite n2b_b2n. reflexivity.
        -- cbn. apply (ge_len _ _ _ He).
        -- intros E0. pose proof (ge_len _ _ _ He (b2n b)) as Hl. rewrite E0 in Hl. cbn in Hl. lia.
        -- apply Forall_forall. intros d Hd. pose proof (ge_bound _ _ _ He _ _ (b2n_lt b) Hd). lia.
Qed.

Theorem C17_decodable : forall p sp ts0 base k added text ps,
  bit_fallback p sp ts0 base k ->
  let ts := fold_left add_token_unchecked added ts0 in
  segments ts ps text ->
  exists toks, map (nth_error (tokens ts)) (stream ts ps) = map Some toks /\
    decode base k toks [] = Some text.
Proof.
  intros p sp ts0 base k added text ps H ts Hseg.
  apply bit_fallback_inv in H as (t & enc & E & He & Hb & Hk).
  assert (Hinv : (forall i, i < base -> nth_error (tokens ts) i = Some (Ext (n2b i))) /\
                 (forall q, In q (sequences ts) -> exists b, q = mkSeq [b] (enc (b2n b)))).
  { unfold ts.
    assert (H0 : (forall i, i < base -> nth_error (tokens ts0) i = Some (Ext (n2b i))) /\
                 (forall q, In q (sequences ts0) -> exists b, q = mkSeq [b] (enc (b2n b)))).
    { destruct (bits_set_fields base t p sp enc) as (_ & E2 & E3). subst ts0. rewrite E2, E3. split.
      - intros i Hi. unfold ext_tokens. rewrite nth_error_map, nth_error_seq0 by exact Hi. reflexivity.
      - intros q. apply in_bits_seqs. }
    clear E Hseg ts. revert ts0 H0. induction added as [|s l IH]; intros ts0 H0; [exact H0|].
    cbn [fold_left]. apply IH. destruct H0 as (H1 & H2). split; cbn.
    - intros i Hi. specialize (H1 i Hi). rewrite nth_error_app1; [exact H1|].
      apply nth_error_Some; congruence.
    - intros q Hq. apply filter_In in Hq as (Hq & _). auto. }
  destruct Hinv as (H1 & H2). eapply segments_decode; eauto.
Qed.

(** A mixed stream decodes: "ab", the digits of "c", "a" in base 16. *)
Example C17_example : decode 16 2 [Str [x61; x62]; Ext x06; Ext x03; Str [x61]] []
  = Some [x61; x62; x63; x61].
Proof. reflexivity. Qed.
Example C17_example_meets : exists ps, segments ex_set ps [x61; x62; x63].
Proof.
  destruct (optimal_exists ex_set [x61; x62; x63]) as (ps & H & _); [apply ex_set_ok|]. eauto.
Qed.
