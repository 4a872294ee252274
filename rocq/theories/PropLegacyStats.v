(** * C115: the numbers in the files of the earlier program: [TokenStats::to_json] of src/stats.rs
    and [dist_entropy] of src/tokens.rs. *)
From Coq Require Import Reals Lra.
From Verif Require Import Base BaseLemmas SortLemmas JsonModel LegacyModel LegacySpec LegacyTok PropLegacyTok LegacyJson.
From Coq Require Import String Permutation.
Local Open Scope list_scope.
Local Notation length := List.length.
Local Notation concat := List.concat.

(** ** The model *)

(** src/tokens.rs:73-84 *)
Definition tokens_in_literal (e : lenc) : nat :=
  match e with LBits1 => 8 | LBits2 => 4 | LBits4 => 2 | LHex => 3 | LAll | LDist2 | LDist4 | LDist8 => 1 end.

(** src/tokens.rs:165-170 [has_dist_fallback] *)
Definition has_dist (e : lenc) : bool := match e with LDist2 | LDist4 | LDist8 => true | _ => false end.

Definition log2 (x : R) : R := (ln x / ln 2)%R.

(** src/tokens.rs:172-191 [dist_entropy]; [counts]: [literal_count].  Simplified: real numbers, without the
    rounding of floating-point arithmetic. *)
Definition dist_entropy (e : lenc) (counts : list nat) : R :=
  if has_dist e then
    if sum counts =? 0 then 0%R
    else fold_left (fun h c => if 0 <? c then (h - INR c / INR (sum counts) * log2 (INR c / INR (sum counts)))%R else h) counts 0%R
  else 0%R.

(** src/stats.rs:67-90 [to_json] with the arguments of src/tokens.rs:323-324, and 43-53 for the totals.  [ratio a b] is the text of the floating-point
    number [a / b]; for [b = 0] the crate json writes null.  [real x] is the text of the floating-point number nearest to [x]. *)
Definition l_stats_object (ratio : nat -> nat -> bstr) (real : R -> bstr) (ts : lset) (s : lstats) (initial : nat) : json :=
  let total_literals := sum (ls_literals s) in
  let total_tokens := sum (ls_tokens s) in
  let final := total_tokens + tokens_in_literal (l_enc ts) * total_literals in
  let quotient a b := if b =? 0 then JNull else JReal (ratio a b) in
  JObj [(lit "ntokens", JNum (length (ls_tokens s) + reserved_tokens (l_enc ts)));
        (lit "literal_cost", JNum (ls_lit_cost s));
        (lit "initial_size", JNum initial);
        (lit "scanned_bytes", JNum (ls_scanned s));
        (lit "total_cost", JNum (l_cost s));
        (lit "total_tokens", JNum total_tokens);
        (lit "total_literals", JNum total_literals);
        (lit "final_tokens", JNum final);
        (lit "bytes_per_token", quotient initial final);
        (lit "literal_dist_entropy", JReal (real (dist_entropy (l_enc ts) (ls_literals s))));
        (lit "cost_per_byte", quotient (l_cost s) initial)].

(** src/optimizer.rs:489-502: what is written *)
Definition l_file (ratio : nat -> nat -> bstr) (real : R -> bstr) (ts : lset) (s : lstats) (initial : nat) (processing : bstr) : json :=
  l_to_json ts (l_stats_object ratio real ts s initial) (ls_literals s) processing.

(** ** Specification *)

(** The literals of a tokenization, and the number of its tokens. *)
Definition literals_of (xs : list tidx) : list byte := flat_map (fun x => match x with LLit b => [b] | _ => [] end) xs.
Definition tokens_of (xs : list tidx) : nat := length (filter (fun x => match x with LTok _ => true | _ => false end) xs).

(** How many tokens are written for a literal, besides which of the 256 literals it is when there is only one token for all of them *)
Definition written_for_literal (e : lenc) : nat :=
  match e with LDist2 | LDist4 | LDist8 => 1 | _ => literal_cost e end.

(** The entropy, in bits, of a letter drawn from a list of letters. *)
Definition share (l : list byte) (b : byte) : R := (INR (count_occ Byte.byte_eq_dec l b) / INR (length l))%R.
Definition rsum (l : list R) : R := fold_right Rplus 0%R l.
Definition entropy (l : list byte) : R := rsum (map (fun b => (share l b * log2 (/ share l b))%R) (nodup Byte.byte_eq_dec l)).

(** ** The totals *)
Lemma literals_count xs b : count_occ Byte.byte_eq_dec (literals_of xs) b = count_occ tidx_eq_dec xs (LLit b).
Proof.
  induction xs as [|x xs IH]; [reflexivity|]. cbn [literals_of flat_map]. rewrite count_occ_app. fold (literals_of xs). rewrite IH.
  cbn [count_occ]. destruct x as [i|c|].
  - destruct (tidx_eq_dec (LTok i) (LLit b)); [discriminate|reflexivity].
  - cbn [count_occ]. destruct (Byte.byte_eq_dec c b) as [E0|N]; destruct (tidx_eq_dec (LLit c) (LLit b)) as [E|N']; try congruence; reflexivity.
  - destruct (tidx_eq_dec LNone (LLit b)); [discriminate|reflexivity].
Qed.

Lemma total_sums ts ps f samples s : l_total ts ps f samples s -> (forall w, l_optimal ts (f w) w) ->
  sum (ls_tokens s) = tokens_of (flat_map f samples) /\ sum (ls_literals s) = length (literals_of (flat_map f samples)) /\
  ls_literals s = map (fun b => count_occ Byte.byte_eq_dec (literals_of (flat_map f samples)) b) all_bytes.
Proof.
  intros [T1 T2 T3 T4 T5 _ _ _ _] Hopt. set (xs := flat_map f samples) in *.
  assert (Hp : forall x, In x xs -> (exists i, x = LTok i /\ i < length (l_tokens ts)) \/ (exists b, x = LLit b)).
  { intros x Hx. unfold xs in Hx. apply in_flat_map in Hx as (w & _ & Hx). eapply segments_pieces; [apply (proj1 (Hopt w))|exact Hx]. }
  assert (El : ls_literals s = map (fun i => count_occ tidx_eq_dec xs (LLit (n2b i))) (seq 0 256)).
  { apply nth_ext with (d := 0) (d' := count_occ tidx_eq_dec xs (LLit (n2b 0))).
    - rewrite map_length, seq_length. exact T4.
    - intros i Hi. rewrite T4 in Hi. rewrite map_nth with (f := fun i => count_occ tidx_eq_dec xs (LLit (n2b i))), seq_nth by exact Hi.
      rewrite <- T5, b2n_n2b_small by exact Hi. reflexivity. }
  split; [|split].
  - rewrite (sum_nth_count LTok (ls_tokens s) (length (l_tokens ts)) xs); [|intros ? ? HH; congruence|exact T2|intros; apply T3].
    rewrite (count_total xs LTok) by (intros i j H _ _; congruence). unfold tokens_of. f_equal. apply filter_ext_in. intros x Hx.
    destruct (Hp x Hx) as [(i & -> & Hi)|(b & ->)].
    + apply existsb_exists. exists i. split; [apply in_seq; lia|]. destruct (tidx_eq_dec (LTok i) (LTok i)); congruence.
    + generalize (seq 0 (length (l_tokens ts))). intros l. induction l as [|j l IHl]; [reflexivity|]. cbn [existsb]. rewrite IHl.
      destruct (tidx_eq_dec (LLit b) (LTok j)); [discriminate|reflexivity].
  - rewrite El, (count_total xs (fun i => LLit (n2b i))).
    + clear -xs. generalize xs as l. induction l as [|x l IH]; [reflexivity|]. cbn [filter literals_of flat_map]. fold (literals_of l). rewrite app_length, <- IH.
      destruct x as [i|b|].
      * assert (E2 : existsb (fun j => if tidx_eq_dec (LTok i) (LLit (n2b j)) then true else false) (seq 0 256) = false).
        { generalize (seq 0 256). intros l'. induction l' as [|j l' IHl]; [reflexivity|]. cbn [existsb]. rewrite IHl. destruct (tidx_eq_dec (LTok i) (LLit (n2b j))); [discriminate|reflexivity]. }
        rewrite E2. reflexivity.
      * assert (E2 : existsb (fun j => if tidx_eq_dec (LLit b) (LLit (n2b j)) then true else false) (seq 0 256) = true).
        { apply existsb_exists. exists (b2n b). split; [apply in_seq; pose proof (b2n_lt b); lia|]. rewrite n2b_b2n. destruct (tidx_eq_dec (LLit b) (LLit b)); congruence. }
        rewrite E2. reflexivity.
      * assert (E2 : existsb (fun j => if tidx_eq_dec LNone (LLit (n2b j)) then true else false) (seq 0 256) = false).
        { generalize (seq 0 256). intros l'. induction l' as [|j l' IHl]; [reflexivity|]. cbn [existsb]. rewrite IHl. destruct (tidx_eq_dec LNone (LLit (n2b j))); [discriminate|reflexivity]. }
        rewrite E2. reflexivity.
    + intros i j H Hi Hj. injection H as H. rewrite <- (b2n_n2b_small i), <- (b2n_n2b_small j), H by assumption. reflexivity.
  - rewrite El. unfold all_bytes. rewrite map_map. apply map_ext. intros i. symmetry. apply literals_count.
Qed.

(** ** Entropy *)
Lemma rsum_perm l l' : Permutation l l' -> rsum l = rsum l'.
Proof. unfold rsum. induction 1; cbn [fold_right] in *; lra. Qed.

Lemma rsum_filter {A} (g : A -> R) (p : A -> bool) l : (forall x, In x l -> p x = false -> g x = 0%R) -> rsum (map g l) = rsum (map g (filter p l)).
Proof.
  induction l as [|x l IH]; intros H; [reflexivity|]. cbn [map filter rsum fold_right]. change (fold_right Rplus 0%R (map g l)) with (rsum (map g l)).
  rewrite IH by (intros y Hy; apply H; right; exact Hy). destruct (p x) eqn:E; [reflexivity|]. rewrite (H x (or_introl eq_refl) E), Rplus_0_l. reflexivity.
Qed.

Lemma rsum_le {A} (g h : A -> R) l : (forall x, In x l -> (g x <= h x)%R) -> (rsum (map g l) <= rsum (map h l))%R.
Proof.
  induction l as [|x l IH]; intros H; [cbn; lra|]. cbn [map rsum fold_right]. change (fold_right Rplus 0%R) with rsum.
  pose proof (H x (or_introl eq_refl)). specialize (IH (fun y Hy => H y (or_intror Hy))). lra.
Qed.

Lemma rsum_minus {A} (g h : A -> R) l : rsum (map (fun x => (g x - h x)%R) l) = (rsum (map g l) - rsum (map h l))%R.
Proof. induction l as [|x l IH]; [cbn; lra|]. change (rsum (map ?h (x :: l))) with (h x + rsum (map h l))%R. cbv beta. rewrite IH. ring. Qed.

Lemma rsum_const {A} (c : R) (l : list A) : rsum (map (fun _ => c) l) = (INR (length l) * c)%R.
Proof. induction l as [|x l IH]; [cbn; lra|]. cbn [map rsum fold_right]. change (fold_right Rplus 0%R) with rsum. change (length (x :: l)) with (S (length l)). rewrite S_INR, IH. lra. Qed.

Lemma rsum_scale {A} (c : R) (g : A -> R) l : rsum (map (fun x => (g x * c)%R) l) = (rsum (map g l) * c)%R.
Proof. induction l as [|x l IH]; [cbn; lra|]. change (rsum (map ?h (x :: l))) with (h x + rsum (map h l))%R. cbv beta. rewrite IH. ring. Qed.

Lemma count_sum (l : list byte) : forall L, (forall b, In b l -> In b L) -> NoDup L -> sum (map (count_occ Byte.byte_eq_dec l) L) = length l.
Proof.
  induction l as [|x l IH]; intros L Hi Hn.
  - clear. induction L as [|a L IHL]; [reflexivity|]. change (0 + sum (map (count_occ Byte.byte_eq_dec []) L) = 0). exact IHL.
  - assert (G : forall K, NoDup K -> sum (map (count_occ Byte.byte_eq_dec (x :: l)) K) = sum (map (count_occ Byte.byte_eq_dec l) K) + (if in_dec Byte.byte_eq_dec x K then 1 else 0)).
    { induction K as [|y K IHK]; intros HK; [reflexivity|]. inversion HK as [|? ? H1 H2]; subst. cbn [map]. change (sum (?a :: ?r)) with (a + sum r). rewrite (IHK H2).
      cbn [count_occ]. destruct (Byte.byte_eq_dec x y) as [->|N].
      - destruct (in_dec Byte.byte_eq_dec y K) as [i|_]; [contradiction|]. destruct (in_dec Byte.byte_eq_dec y (y :: K)) as [_|n]; [lia|exfalso; apply n; left; reflexivity].
      - destruct (in_dec Byte.byte_eq_dec x K) as [i|ni]; destruct (in_dec Byte.byte_eq_dec x (y :: K)) as [j|nj]; try lia.
        + exfalso; apply nj; right; exact i.
        + exfalso. destruct j as [->|j]; [exact (N eq_refl)|exact (ni j)]. }
    rewrite (G L Hn), IH; [|intros b Hb; apply Hi; right; exact Hb|exact Hn]. destruct (in_dec Byte.byte_eq_dec x L) as [_|n]; [cbn [length]; lia|exfalso; apply n, Hi; left; reflexivity].
Qed.

Lemma rsum_inr {A} (g : A -> nat) l : rsum (map (fun x => INR (g x)) l) = INR (sum (map g l)).
Proof. induction l as [|x l IH]; [reflexivity|]. cbn [map rsum fold_right]. change (fold_right Rplus 0%R) with rsum. change (sum (?a :: ?r)) with (a + sum r). rewrite plus_INR, IH. reflexivity. Qed.

Lemma shares_sum l : l <> [] -> rsum (map (share l) (nodup Byte.byte_eq_dec l)) = 1%R.
Proof.
  intros Hl. unfold share, Rdiv. rewrite rsum_scale, rsum_inr, count_sum; [|intros b Hb; apply nodup_In; exact Hb|apply NoDup_nodup].
  apply Rinv_r. apply not_0_INR. destruct l; [congruence|discriminate].
Qed.

Lemma share_pos l b : In b l -> (0 < share l b <= 1)%R.
Proof.
  intros H. unfold share. assert (0 < count_occ Byte.byte_eq_dec l b) by (apply count_occ_In; exact H).
  pose proof (count_occ_bound Byte.byte_eq_dec b l) as B.
  assert (0 < INR (count_occ Byte.byte_eq_dec l b))%R by (apply lt_0_INR; exact H0).
  apply le_INR in B. split; [apply Rdiv_lt_0_compat; lra|]. apply (Rmult_le_reg_r (INR (length l))); [lra|]. unfold Rdiv. rewrite Rmult_assoc, Rinv_l by lra. lra.
Qed.

Lemma ln2_pos : (0 < ln 2)%R.
Proof. rewrite <- ln_1. apply ln_increasing; lra. Qed.

Lemma ln_below x : (0 < x)%R -> (ln x <= x - 1)%R.
Proof. intros H. pose proof (exp_ineq1_le (ln x)) as E. rewrite exp_ln in E by exact H. lra. Qed.

Lemma entropy_bounds l : l <> [] -> (0 <= entropy l <= log2 (INR (length (nodup Byte.byte_eq_dec l))))%R.
Proof.
  intros Hl. set (k := length (nodup Byte.byte_eq_dec l)).
  assert (Hk : (0 < INR k)%R).
  { apply lt_0_INR. unfold k. destruct l as [|x l]; [congruence|]. pose proof (proj2 (nodup_In Byte.byte_eq_dec (x :: l) x) (or_introl eq_refl)) as I.
    destruct (nodup Byte.byte_eq_dec (x :: l)); [destruct I|cbn [length]; lia]. }
  pose proof ln2_pos as L2. split.
  - unfold entropy. apply (Rle_trans _ (rsum (map (fun _ => 0%R) (nodup Byte.byte_eq_dec l)))); [rewrite rsum_const; lra|]. apply rsum_le. intros b Hb.
    apply nodup_In in Hb. destruct (share_pos l b Hb) as [P1 P2]. apply Rmult_le_pos; [lra|]. unfold log2. apply Rmult_le_pos; [|apply Rlt_le, Rinv_0_lt_compat, L2].
    rewrite <- ln_1. destruct P2 as [P2| ->]; [|rewrite Rinv_1; lra]. apply Rlt_le, ln_increasing; [lra|]. rewrite <- Rinv_1. apply Rinv_lt_contravar; lra.
  - assert (G : (entropy l - log2 (INR k) <= 0)%R); [|lra].
    assert (E : (entropy l - log2 (INR k))%R = rsum (map (fun b => (share l b * log2 (/ (INR k * share l b)))%R) (nodup Byte.byte_eq_dec l))).
    { replace (log2 (INR k)) with (rsum (map (fun b => (share l b * log2 (INR k))%R) (nodup Byte.byte_eq_dec l))) by (rewrite rsum_scale, (shares_sum l Hl); lra).
      unfold entropy. rewrite <- rsum_minus. f_equal. apply map_ext_in. intros b Hb. apply nodup_In in Hb. destruct (share_pos l b Hb) as [P1 _].
      unfold log2. rewrite !ln_Rinv, ln_mult by (try exact Hk; try exact P1; try (apply Rmult_lt_0_compat; lra)). field. lra. }
    rewrite E. apply (Rle_trans _ (rsum (map (fun b => ((/ INR k - share l b) * / ln 2)%R) (nodup Byte.byte_eq_dec l)))).
    + apply rsum_le. intros b Hb. apply nodup_In in Hb. destruct (share_pos l b Hb) as [P1 _]. unfold log2.
      assert (Q : (0 < INR k * share l b)%R) by (apply Rmult_lt_0_compat; lra).
      pose proof (ln_below (/ (INR k * share l b)) (Rinv_0_lt_compat _ Q)) as B.
      replace (share l b * (ln (/ (INR k * share l b)) / ln 2))%R with ((share l b * ln (/ (INR k * share l b))) * / ln 2)%R by (field; lra).
      apply Rmult_le_compat_r; [apply Rlt_le, Rinv_0_lt_compat, L2|].
      apply (Rle_trans _ (share l b * (/ (INR k * share l b) - 1))%R); [apply Rmult_le_compat_l; lra|].
      right. field. split; lra.
    + rewrite rsum_scale, rsum_minus, rsum_const, (shares_sum l Hl). fold k. rewrite Rinv_r by lra. lra.
Qed.

Lemma fold_minus (p : nat -> R) l : forall h, fold_left (fun h c => if 0 <? c then (h - p c)%R else h) l h = (h + rsum (map (fun c => if 0 <? c then (- p c)%R else 0%R) l))%R.
Proof.
  induction l as [|c l IH]; intros h; [cbn; lra|]. cbn [fold_left map rsum fold_right]. change (fold_right Rplus 0%R) with rsum. rewrite IH. destruct (0 <? c); lra.
Qed.

Lemma dist_entropy_spec e l : has_dist e = true -> dist_entropy e (map (count_occ Byte.byte_eq_dec l) all_bytes) = entropy l.
Proof.
  intros He. unfold dist_entropy. rewrite He. rewrite (count_sum l all_bytes (fun b _ => in_all_bytes b) NoDup_all_bytes).
  destruct l as [|x l]; [reflexivity|]. set (L := x :: l). change (length L =? 0) with false. cbv iota.
  rewrite (fold_minus (fun c => (INR c / INR (length L) * log2 (INR c / INR (length L)))%R)), Rplus_0_l, map_map.
  set (p := fun b => if in_dec Byte.byte_eq_dec b L then true else false).
  rewrite (rsum_filter _ p).
  - unfold entropy.
    assert (P : Permutation (filter p all_bytes) (nodup Byte.byte_eq_dec L)).
    { apply NoDup_Permutation; [apply NoDup_filter, NoDup_all_bytes|apply NoDup_nodup|]. intros b. rewrite filter_In, nodup_In. unfold p.
      destruct (in_dec Byte.byte_eq_dec b L) as [i|n]; [|split; [intros (_ & ?); discriminate|contradiction]]. split; [intros _; exact i|intros _; split; [apply in_all_bytes|reflexivity]]. }
    rewrite (rsum_perm _ _ (Permutation_map _ P)). f_equal. apply map_ext_in. intros b Hb. apply nodup_In in Hb. fold (share L b).
    assert (C : 0 < count_occ Byte.byte_eq_dec L b) by (apply count_occ_In; exact Hb). apply Nat.ltb_lt in C. rewrite C.
    destruct (share_pos L b Hb) as [P1 _]. unfold log2. rewrite ln_Rinv by exact P1. unfold Rdiv. ring.
  - intros b _ Hp. unfold p in Hp. destruct (in_dec Byte.byte_eq_dec b L) as [|n]; [discriminate|]. apply (count_occ_not_In Byte.byte_eq_dec) in n. rewrite n. reflexivity.
Qed.

(** ** The claims *)

(** With [LAll] every byte is a token. *)
Lemma all_bytes_tokens ts b : l_built ts -> l_enc ts = LAll -> In [b] (l_strings ts).
Proof.
  intros Hb He. pose proof (built_mandatory ts Hb) as M. rewrite He in M. unfold l_strings.
  assert (I : In (mkLtok [b] true) (filter lt_mandatory (l_tokens ts))).
  { rewrite M. apply in_map with (f := fun s => mkLtok s true). unfold mandatory_strings. apply in_map_iff. exists b. split; [reflexivity|]. apply in_all_bytes. }
  apply filter_In in I as (I & _). apply in_map_iff. exists (mkLtok [b] true). auto.
Qed.

Theorem C115_file_numbers : forall ratio real ts ps parts initial processing,
  l_built ts -> ~ In [] (l_strings ts) -> (forall w, In w (concat parts) -> w <> []) ->
  exists s (f : bstr -> list tidx), l_tokenize ts ps parts = Ret s /\ (forall w, l_optimal ts (f w) w) /\
  let pieces := flat_map f (concat parts) in
  let v := l_file ratio real ts s initial processing in
  let stats := jindex v (lit "stats") in
  exists entries cost final,
    jindex v (lit "tokens") = JArr entries /\ jindex stats (lit "ntokens") = JNum (length entries) /\ length entries = l_ntokens ts /\
    jindex stats (lit "initial_size") = JNum initial /\
    jindex stats (lit "scanned_bytes") = JNum (length (concat (concat parts))) /\
    jindex stats (lit "literal_cost") = JNum (literal_cost (l_enc ts)) /\
    jindex stats (lit "total_tokens") = JNum (tokens_of pieces) /\
    jindex stats (lit "total_literals") = JNum (length (literals_of pieces)) /\
    jindex stats (lit "total_cost") = JNum cost /\ l_costs ts (concat parts) cost /\
    jindex stats (lit "final_tokens") = JNum final /\
    final = tokens_of pieces + written_for_literal (l_enc ts) * length (literals_of pieces) /\
    final <= cost /\ (~ In (l_enc ts) [LDist2; LDist4; LDist8] -> final = cost) /\
    jindex stats (lit "bytes_per_token") = (if final =? 0 then JNull else JReal (ratio initial final)) /\
    jindex stats (lit "cost_per_byte") = (if initial =? 0 then JNull else JReal (ratio cost initial)) /\
    (In (l_enc ts) [LDist2; LDist4; LDist8] ->
       jindex stats (lit "literal_dist_entropy") = JReal (real (entropy (literals_of pieces))) /\
       exists counts, jindex v (lit "literal_count") = JArr (map JNum counts) /\ length counts = 256 /\
         forall b, nth (b2n b) counts 0 = count_occ Byte.byte_eq_dec (literals_of pieces) b).
Proof.
  intros ratio real ts ps parts initial processing Hb Hn Hne. destruct (C76_legacy_tokenizer ts Hb) as (_ & H). destruct (H Hn) as (f & Hf & Ht). clear H.
  destruct (Ht ps parts Hne) as (s & E & T & C). assert (Hopt : forall w, l_optimal ts (f w) w) by (intros w; apply (proj1 (proj1 (Hf w)))).
  exists s, f. split; [exact E|]. split; [exact Hopt|]. intros pieces v stats.
  destruct (total_sums _ _ _ _ _ T Hopt) as (S1 & S2 & S3). fold pieces in S1, S2, S3.
  set (strs := stable_sort (fun a b => cmp_leb (bstr_cmp a b)) (map lt_string (l_tokens ts))).
  set (entries := map JNum (seq 0 (reserved_tokens (l_enc ts))) ++ map bytes_to_json strs).
  assert (Hlen : length entries = l_ntokens ts).
  { unfold entries. rewrite app_length, !map_length, seq_length. unfold strs. rewrite (Permutation_length (sort_perm _ _)), map_length. unfold l_ntokens. lia. }
  assert (Ev : stats = l_stats_object ratio real ts s initial) by reflexivity.
  assert (Hlit : l_enc ts = LAll -> literals_of pieces = []).
  { intros He. destruct (literals_of pieces) as [|b l] eqn:El; [reflexivity|]. exfalso.
    assert (I : In b (literals_of pieces)) by (rewrite El; left; reflexivity). apply in_flat_map in I as (x & Hx & I). destruct x as [|c|]; try destruct I as [->|[]]; try destruct I.
    unfold pieces in Hx. apply in_flat_map in Hx as (w & _ & Hx). apply (proj2 (Hf w) b Hx). apply all_bytes_tokens; assumption. }
  assert (Hcost : l_cost s = tokens_of pieces + literal_cost (l_enc ts) * length (literals_of pieces)).
  { unfold l_cost. rewrite (lt_lit_cost _ _ _ _ _ T), S1, S2. reflexivity. }
  assert (Hw : tokens_in_literal (l_enc ts) * length (literals_of pieces) = written_for_literal (l_enc ts) * length (literals_of pieces)).
  { destruct (l_enc ts) eqn:He; try reflexivity. rewrite (Hlit eq_refl). reflexivity. }
  exists entries, (l_cost s), (tokens_of pieces + written_for_literal (l_enc ts) * length (literals_of pieces)).
  split; [reflexivity|]. split; [rewrite Ev, Hlen; unfold l_ntokens; rewrite <- (lt_tokens_length _ _ _ _ _ T); reflexivity|]. split; [exact Hlen|].
  split; [rewrite Ev; reflexivity|]. split; [rewrite Ev, <- (lt_scanned _ _ _ _ _ T); reflexivity|].
  split; [rewrite Ev, <- (lt_lit_cost _ _ _ _ _ T); reflexivity|].
  split; [rewrite Ev, <- S1; reflexivity|]. split; [rewrite Ev, <- S2; reflexivity|].
  split; [rewrite Ev; reflexivity|]. split; [exists f; split; [exact Hopt|exact C]|].
  rewrite <- Hw. split; [rewrite Ev, <- S1, <- S2; reflexivity|]. split; [rewrite Hw; reflexivity|].
  split; [rewrite Hw, Hcost; apply Nat.add_le_mono_l, Nat.mul_le_mono_r; destruct (l_enc ts); cbn [written_for_literal literal_cost]; lia|].
  split; [intros Nd; rewrite Hw, Hcost; destruct (l_enc ts); try reflexivity; exfalso; apply Nd; cbn [In]; auto|].
  split; [rewrite Ev, <- S1, <- S2; reflexivity|]. split; [rewrite Ev; reflexivity|].
  intros D. assert (Hd : has_dist (l_enc ts) = true) by (destruct D as [<-|[<-|[<-|[]]]]; reflexivity).
  split.
  - assert (Q : dist_entropy (l_enc ts) (ls_literals s) = entropy (literals_of pieces)) by (rewrite S3; exact (dist_entropy_spec _ _ Hd)).
    rewrite Ev, <- Q. reflexivity.
  - exists (ls_literals s). split; [|split; [exact (lt_literals_length _ _ _ _ _ T)|]].
    + unfold v, l_file, l_to_json. destruct D as [<-|[<-|[<-|[]]]]; reflexivity.
    + intros b. rewrite (lt_literals _ _ _ _ _ T), literals_count. reflexivity.
Qed.

Theorem C115_entropy_bounds : forall l : list byte, l <> [] ->
  (0 <= entropy l <= log2 (INR (length (nodup Byte.byte_eq_dec l))))%R /\ (log2 (INR (length (nodup Byte.byte_eq_dec l))) <= 8)%R.
Proof.
  intros l Hl. split; [exact (entropy_bounds l Hl)|]. set (k := length (nodup Byte.byte_eq_dec l)).
  assert (K : 1 <= k <= 256).
  { split.
    - unfold k. destruct l as [|x l]; [congruence|]. pose proof (proj2 (nodup_In Byte.byte_eq_dec (x :: l) x) (or_introl eq_refl)) as I.
      destruct (nodup Byte.byte_eq_dec (x :: l)); [destruct I|cbn [length]; lia].
    - rewrite <- all_bytes_length. apply NoDup_incl_length; [apply NoDup_nodup|]. intros b _. apply in_all_bytes. }
  clearbody k. pose proof ln2_pos as L2. unfold log2. apply (Rmult_le_reg_r (ln 2)); [exact L2|]. unfold Rdiv. rewrite Rmult_assoc, Rinv_l, Rmult_1_r by lra.
  replace (8 * ln 2)%R with (ln (2 ^ 8)) by (rewrite ln_pow by lra; rewrite (INR_IZR_INZ 8); cbn; lra).
  assert (Hr : (INR k <= 2 ^ 8)%R).
  { replace (2 ^ 8)%R with (IZR 256) by lra. rewrite INR_IZR_INZ. apply IZR_le. lia. }
  assert (Hp : (0 < INR k)%R) by (apply lt_0_INR; lia).
  destruct Hr as [Hr| ->]; [apply Rlt_le, ln_increasing; assumption|lra].
Qed.

Lemma ex_literal xs w : l_segments ts_ex xs w -> In (n2b 99) w -> 1 <= length (literals_of xs).
Proof.
  induction 1 as [|x xs y r Hp _ IH]; intros Hi; [destruct Hi|]. cbn [literals_of flat_map]. fold (literals_of xs). rewrite app_length.
  destruct x as [i|b|]; [|cbn [length]; lia|discriminate Hp]. apply in_app_iff in Hi as [Hi|Hi]; [|specialize (IH Hi); lia]. exfalso.
  destruct i as [|[|i]]; cbn in Hp; [| |destruct i; discriminate Hp]; injection Hp as <-; revert Hi; cbn [map In]; intros Hi; repeat (destruct Hi as [Hi|Hi]; [discriminate Hi|]); exact Hi.
Qed.

(** The hypotheses are met: a set with the tokens [ab] and [a], and the text [ababc], in which [c] is a literal. *)
Theorem C115_hypotheses_met : l_built ts_ex /\ ~ In [] (l_strings ts_ex) /\ (forall w, In w (concat [[w_ex]]) -> w <> []) /\ In (l_enc ts_ex) [LDist2; LDist4; LDist8] /\
  forall f, (forall w, l_optimal ts_ex (f w) w) -> literals_of (flat_map f (concat [[w_ex]])) <> [].
Proof.
  destruct ts_ex_built as (B & N). split; [exact B|]. split; [exact N|]. split; [intros w [<-|[]]; discriminate|]. split; [right; right; left; reflexivity|].
  intros f Hopt. cbn [concat flat_map app]. rewrite app_nil_r. pose proof (ex_literal _ _ (proj1 (Hopt w_ex))) as H.
  assert (I : In (n2b 99) w_ex) by (apply in_map; cbn [In]; auto 6). specialize (H I). intros E. rewrite E in H. cbn [length] in H. lia.
Qed.
