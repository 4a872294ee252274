(** * Facts about [SimpleBytesOptimizer]. *)
From Verif Require Import Base BaseLemmas TokenSetModel TokenizerModel TokSpec SortLemmas
  TokenSetProof TokenSetProof2 TokenizerTheory PropTokenSet PropJson Shaped OptBytesModel OptBytesProof OptBytesProof2.

(** The bytes in order of decreasing use. *)
Definition ranked (s : stats) : list byte :=
  stable_sort (fun x y => uses s y <=? uses s x) all_bytes.

Lemma ranked_perm s : Permutation (ranked s) all_bytes.
Proof. apply sort_perm. Qed.

Lemma ranked_length s : length (ranked s) = 256.
Proof. unfold ranked. rewrite sort_length. apply all_bytes_length. Qed.

Lemma ranked_nodup s : NoDup (ranked s).
Proof. eapply Permutation_NoDup; [apply Permutation_sym, ranked_perm|apply NoDup_all_bytes]. Qed.

Lemma ranked_sorted s : StronglySorted (fun x y => uses s y <= uses s x) (ranked s).
Proof.
  eapply StronglySorted_impl; [|apply (sort_sorted (fun x y => uses s y <=? uses s x))].
  - intros a b H. apply Nat.leb_le. exact H.
  - intros x y. rewrite !Nat.leb_le. lia.
  - intros x y z. rewrite !Nat.leb_le. lia.
Qed.

Lemma stable_sort_ext {A} (f g : A -> A -> bool) l : (forall x y, f x y = g x y) -> stable_sort f l = stable_sort g l.
Proof.
  intros H. pose proof (sort_map (fun x : A => x) f g l) as E. rewrite !map_id in E. apply E.
  intros x y _ _. symmetry; apply H.
Qed.

Lemma slice_0 {A} (v : list A) n : n <= length v -> slice v 0 n = Ret (firstn n v).
Proof.
  intros H. unfold slice. cbn [Nat.leb andb]. rewrite (proj2 (Nat.leb_le _ _)) by exact H.
  cbn [andb skipn]. rewrite Nat.sub_0_r. reflexivity.
Qed.

(** The fresh set of a bits type. *)
Definition bits_fresh (t : token_type) (p : processing) (sp : bool) : option tokenset :=
  match t with
  | Bits1 => Some (new_bits1 p sp) | Bits2 => Some (new_bits2 p sp) | Bits4 => Some (new_bits4 p sp)
  | Bytes | BytesHuff => None
  end.

Lemma bits_fresh_inv t p sp ts0 : bits_fresh t p sp = Some ts0 ->
  exists base k enc, ts0 = bits_set base t p sp enc /\ good_enc base k enc /\
    bit_fallback p sp ts0 base k /\ fits_type t base /\ base <= 16 /\ 2 <= k /\ 2 <= base.
Proof.
  destruct t; cbn [bits_fresh]; intros E; try discriminate; injection E as <-.
  - exists 2, 8, enc1. split; [apply new_bits1_eq|]. split; [apply good_enc1|]. split; [constructor|]. cbn; lia.
  - exists 4, 4, enc2. split; [apply new_bits2_eq|]. split; [apply good_enc2|]. split; [constructor|]. cbn; lia.
  - exists 16, 2, enc4. split; [apply new_bits4_eq|]. split; [apply good_enc4|]. split; [constructor|]. cbn; lia.
Qed.

Lemma simple_bytes_eq s n ts0 :
  sized s -> usable (st_token_set s) ->
  bits_fresh (ts_type (st_token_set s)) (ts_processing (st_token_set s)) (split_paragraphs (st_token_set s)) = Some ts0 ->
  simple_bytes s n =
    if (n_ext_tokens (st_token_set s) <=? n) && (n <=? n_ext_tokens (st_token_set s) + 256) then
      Ret (fold_left add_token_unchecked
             (singles (firstn (n - n_ext_tokens (st_token_set s)) (ranked s)) ++ longs (str_tokens (st_token_set s))) ts0)
    else Panic.
Proof.
  intros Hz Hu Hf. unfold simple_bytes, checked_sub. set (ts := st_token_set s) in *.
  destruct (Nat.leb_spec (n_ext_tokens ts) n) as [H|H]; [|reflexivity]. cbn [bind andb].
  rewrite simple_counts_ok by exact Hz. cbn [bind].
  replace (stable_sort _ all_bytes) with (ranked s).
  2:{ unfold ranked. apply stable_sort_ext. intros x y. rewrite !simple_count_at by assumption. reflexivity. }
  destruct (Nat.leb_spec n (n_ext_tokens ts + 256)) as [H1|H1].
  - rewrite slice_0 by (rewrite ranked_length; lia). cbn [bind].
    assert (E : match ts_type ts with
         | Bits1 => Ret (new_bits1 (ts_processing ts) (split_paragraphs ts))
         | Bits2 => Ret (new_bits2 (ts_processing ts) (split_paragraphs ts))
         | Bits4 => Ret (new_bits4 (ts_processing ts) (split_paragraphs ts))
         | Bytes | BytesHuff => Panic end = Ret ts0).
    { destruct (ts_type ts); cbn [bits_fresh] in Hf; congruence. }
    rewrite E. cbn [bind]. rewrite add_bytes_ok. cbn [bind]. rewrite add_long_ok, fold_left_app. reflexivity.
  - unfold slice. rewrite ranked_length. cbn [Nat.leb andb].
    replace (n - n_ext_tokens ts <=? 256) with false by (symmetry; apply Nat.leb_gt; lia). reflexivity.
Qed.

Lemma str_tokens_shaped ts ss : tokens ts = map (fun i => Ext (n2b i)) (seq 0 (n_ext_tokens ts)) ++ map Str ss ->
  str_tokens ts = ss.
Proof.
  intros E. unfold str_tokens. rewrite E, flat_map_app.
  fold (ext_tokens (n_ext_tokens ts)). rewrite str_of_ext. cbn [app].
  clear. induction ss; cbn; congruence.
Qed.

(** Adding distinct new strings to a set that has the right shape *)
Lemma shaped_fold l : forall ts ss, shaped ts ss -> NoDup l -> ~ In [] l -> (forall x, In x l -> ~ In x ss) ->
  shaped (fold_left add_token_unchecked l ts) (ss ++ l).
Proof.
  induction l as [|x l IH]; intros ts ss S Hn He Hd; cbn [fold_left]; [rewrite app_nil_r; exact S|].
  inversion Hn as [|? ? Hx Hn']; subst.
  replace (ss ++ x :: l) with ((ss ++ [x]) ++ l) by (rewrite <- app_assoc; reflexivity).
  apply IH; auto.
  - apply shaped_add; [exact S| |apply Hd; left; reflexivity]. intros ->. apply He. left; reflexivity.
  - intros H; apply He; right; exact H.
  - intros y Hy Hi. apply in_app_iff in Hi as [Hi|[<-|[]]]; [|auto]. apply (Hd y); [right; exact Hy|exact Hi].
Qed.

Lemma usable_fold l : forall ts, usable ts -> NoDup l -> ~ In [] l -> (forall x, In x l -> ~ In x (str_tokens ts)) ->
  usable (fold_left add_token_unchecked l ts).
Proof.
  induction l as [|x l IH]; intros ts S Hn He Hd; cbn [fold_left]; [exact S|].
  inversion Hn as [|? ? Hx Hn']; subst. apply IH; auto.
  - apply usable_add; [exact S| |apply Hd; left; reflexivity]. intros ->. apply He. left; reflexivity.
  - intros H; apply He; right; exact H.
  - intros y Hy Hi. rewrite str_tokens_add in Hi.
    apply in_app_iff in Hi as [Hi|[<-|[]]]; [|auto]. apply (Hd y); [right; exact Hy|exact Hi].
Qed.

Lemma shaped_bits_set base t p sp enc k : good_enc base k enc -> fits_type t base -> 2 <= k ->
  shaped (bits_set base t p sp enc) [].
Proof.
  intros He Hf Hk. destruct (bits_set_fields base t p sp enc) as (E1 & E2 & E3).
  assert (Et : ts_type (bits_set base t p sp enc) = t) by reflexivity.
  pose proof (seqs_bits_set base t p sp enc (ge_bound _ _ _ He)) as Hr.
  revert E1 E2 E3 Et Hr. generalize (bits_set base t p sp enc). intros ts E1 E2 E3 Et Hr. split.
  - rewrite E2, E1. cbn. rewrite app_nil_r. reflexivity.
  - rewrite Et, E1. exact Hf.
  - intros [].
  - constructor.
  - exact Hr.
  - intros q Hq. rewrite E3 in Hq. apply in_bits_seqs in Hq as (b & ->). cbn [seq_tokens]. rewrite (ge_len _ _ _ He). lia.
Qed.

Lemma NoDup_singles l : NoDup l -> NoDup (singles l).
Proof. apply NoDup_map_inj. congruence. Qed.

Lemma byte_long_nodup l ss : NoDup l -> NoDup ss -> NoDup (singles l ++ longs ss).
Proof.
  intros H1 H2. apply NoDup_app_iff. split; [apply NoDup_singles; exact H1|]. split; [apply NoDup_filter; exact H2|].
  intros x Hx Hy. apply in_map_iff in Hx as (b & <- & _). apply in_longs in Hy as (_ & Hy). cbn in Hy. lia.
Qed.

Lemma byte_long_nonempty l ss : ~ In [] (singles l ++ longs ss).
Proof.
  intros H. apply in_app_iff in H as [H|H].
  - apply in_map_iff in H as (b & E & _). discriminate.
  - apply in_longs in H as (_ & H). cbn in H. lia.
Qed.

Lemma NoDup_firstn {A} n (l : list A) : NoDup l -> NoDup (firstn n l).
Proof. intros H. rewrite <- (firstn_skipn n l) in H. apply NoDup_app_iff in H. apply H. Qed.

(** The sum of the uses of the first [m] ranked bytes is the largest for [m] bytes. *)
Lemma in_sum l x : In x l -> x <= sum l.
Proof. unfold sum. induction l as [|y l IH]; cbn; [intros []|]. intros [->|H]; [lia|]. specialize (IH H). lia. Qed.

Lemma sum_perm l1 l2 : Permutation l1 l2 -> sum l1 = sum l2.
Proof. unfold sum. induction 1; cbn; lia. Qed.

Lemma top_sum (f : byte -> nat) : forall r l, StronglySorted (fun x y => f y <= f x) r -> NoDup l ->
  incl l r -> forall m, length l <= m -> sum (map f l) <= sum (map f (firstn m r)).
Proof.
  induction r as [|x r IH]; intros l Hs Hn Hi m Hm.
  - destruct l as [|y l]; [cbn; lia|]. exfalso. apply (Hi y). left; reflexivity.
  - inversion Hs as [|? ? Hs' Hx]; subst. rewrite Forall_forall in Hx.
    destruct l as [|y0 l0]; [cbn; lia|].
    destruct m as [|m]; [cbn in Hm; lia|]. cbn [firstn].
    destruct (in_dec (fun a b => Byte.byte_eq_dec a b) x (y0 :: l0)) as [Hin|Hin].
    + apply in_split in Hin as (l1 & l2 & E). rewrite E in Hn, Hi, Hm |- *. clear y0 l0 E.
      assert (Hp : Permutation (l1 ++ x :: l2) (x :: l1 ++ l2)) by (symmetry; apply Permutation_middle).
      rewrite (sum_perm _ _ (Permutation_map f Hp)). cbn [map]. unfold sum in *; cbn [fold_right].
      apply Nat.add_le_mono_l. apply IH.
      * exact Hs'.
      * eapply NoDup_remove_1; exact Hn.
      * intros z Hz. assert (Hz' : In z (x :: r)) by (apply Hi; apply in_app_iff in Hz; apply in_app_iff; cbn; tauto).
        destruct Hz' as [<-|Hz']; [|exact Hz']. exfalso. apply NoDup_remove_2 in Hn. auto.
      * rewrite app_length in *. cbn in Hm. lia.
    + unfold sum in *; cbn [fold_right map].
      assert (Hy0 : f y0 <= f x).
      { destruct (Hi y0 (or_introl eq_refl)) as [E|H]; [subst; reflexivity|]. apply Hx; exact H. }
      apply Nat.add_le_mono; [exact Hy0|]. inversion Hn; subst. apply IH.
      * exact Hs'.
      * assumption.
      * intros z Hz. destruct (Hi z (or_intror Hz)) as [E|H]; [|exact H]. subst z. exfalso. apply Hin. right; exact Hz.
      * cbn in Hm. lia.
Qed.
