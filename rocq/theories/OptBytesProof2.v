(** * Facts about src/optimize_bytes.rs: byte tables and token sets. *)
From Verif Require Import Base BaseLemmas TokenSetModel TokenizerModel TokSpec SortLemmas
  TokenSetProof TokenizerTheory OptBytesModel OptBytesProof.

Notation singles := (map (fun b : byte => [b])).

(** ** Adding several tokens *)
Definition in_strs (l : list bstr) (s : bstr) : bool := existsb (bstr_eqb s) l.

Lemma in_strs_true l s : in_strs l s = true <-> In s l.
Proof.
  unfold in_strs. rewrite existsb_exists. split.
  - intros (x & Hx & E). apply bstr_eqb_eq in E as ->. exact Hx.
  - intros H. exists s. split; [exact H|apply bstr_eqb_refl].
Qed.

Lemma fold_add_unchecked l ts :
  fold_left add_token_unchecked l ts =
  mkTS (n_ext_tokens ts) (ts_type ts) (ts_processing ts) (split_paragraphs ts)
       (tokens ts ++ map Str l)
       (filter (fun q => negb (in_strs l (seq_string q))) (sequences ts)).
Proof.
  revert ts; induction l as [|s l IH]; intros ts; cbn.
  - rewrite app_nil_r, filter_id by reflexivity. destruct ts; reflexivity.
  - rewrite IH. cbn [add_token_unchecked n_ext_tokens ts_type ts_processing split_paragraphs tokens sequences].
    rewrite <- app_assoc. f_equal.
    induction (sequences ts) as [|q qs IHq]; [reflexivity|]. cbn [filter].
    rewrite <- IHq. destruct (bstr_eqb (seq_string q) s); cbn [negb orb filter]; reflexivity.
Qed.

Lemma add_token_ok ts s : s <> [] -> add_token ts s = Ret (add_token_unchecked ts s, length (tokens ts)).
Proof. intros H. unfold add_token. rewrite (proj2 (bstr_eqb_neq s [])) by exact H. reflexivity. Qed.

Lemma add_bytes_ok l ts :
  mfold (fun t b => '(t', _) <- add_token t [b] ;; Ret t') l ts
  = Ret (fold_left add_token_unchecked (singles l) ts).
Proof.
  revert ts; induction l as [|b l IH]; intros ts; cbn [mfold map fold_left]; [reflexivity|].
  rewrite add_token_ok by discriminate. cbn [bind]. apply IH.
Qed.

Definition longs (ss : list bstr) : list bstr := filter (fun s => 1 <? length s) ss.

Lemma longs_app a b : longs (a ++ b) = longs a ++ longs b.
Proof. apply filter_app. Qed.

Lemma longs_singles l : longs (singles l) = [].
Proof. induction l; cbn; auto. Qed.

Lemma longs_id l : (forall s, In s l -> 1 < length s) -> longs l = l.
Proof. intros H. apply filter_id. intros x Hx. apply Nat.ltb_lt; auto. Qed.

Lemma in_longs ss s : In s (longs ss) <-> In s ss /\ 1 < length s.
Proof. unfold longs. rewrite filter_In, Nat.ltb_lt. reflexivity. Qed.

Lemma add_long_ok from to :
  add_long_tokens from to = Ret (fold_left add_token_unchecked (longs (str_tokens from)) to).
Proof.
  unfold add_long_tokens, str_tokens. revert to.
  induction (tokens from) as [|[s|n] l IH]; intros to; cbn [mfold flat_map app]; [reflexivity| |exact (IH to)].
  cbn [longs filter]. destruct (Nat.ltb_spec 1 (length s)) as [H|H].
  - rewrite add_token_ok by (intros ->; cbn in H; lia). cbn [bind fold_left]. apply IH.
  - cbn [bind]. apply IH.
Qed.

(** ** Tables indexed by bytes *)
Section Table.
Context {V : Type}.

Definition wr (t : list V) (w : byte * V) : list V := upd (b2n (fst w)) (fun _ => snd w) t.

Lemma wr_length ws t : length (fold_left wr ws t) = length t.
Proof. revert t; induction ws as [|w ws IH]; intros t; cbn; [reflexivity|]. rewrite IH. apply upd_length. Qed.

Lemma wr_other ws b : forall t, ~ In b (map fst ws) ->
  nth_error (fold_left wr ws t) (b2n b) = nth_error t (b2n b).
Proof.
  induction ws as [|w ws IH]; intros t H; cbn; [reflexivity|]. rewrite IH by (intros Hi; apply H; right; exact Hi).
  unfold wr. rewrite nth_error_upd. destruct (Nat.eqb_spec (b2n b) (b2n (fst w))) as [E|E]; [|reflexivity]. symmetry in E.
  exfalso; apply H. left. apply b2n_inj; exact E.
Qed.

Lemma wr_in ws b v : forall t, length t = 256 -> NoDup (map fst ws) -> In (b, v) ws ->
  nth_error (fold_left wr ws t) (b2n b) = Some v.
Proof.
  induction ws as [|w ws IH]; intros t Ht Hn Hi; [destruct Hi|]. cbn [fold_left].
  cbn [map] in Hn. inversion Hn as [|? ? Hx Hn']; subst. destruct Hi as [->|Hi].
  - cbn [fst] in Hx. rewrite wr_other by exact Hx. unfold wr. rewrite nth_error_upd. cbn [fst snd].
    rewrite Nat.eqb_refl. destruct (nth_error t (b2n b)) eqn:E; [reflexivity|].
    apply nth_error_None in E. pose proof (b2n_lt b). lia.
  - apply IH; [unfold wr; rewrite upd_length; exact Ht|exact Hn'|exact Hi].
Qed.
End Table.

(** The uses of single bytes that a statistics object reports: each entry is a
    byte and the counter of its token or of its sequence. *)
Definition token_uses (s : stats) : list (byte * nat) :=
  flat_map (fun p => match fst p with Str [b] => [(b, snd p)] | _ => [] end)
           (combine (tokens (st_token_set s)) (token_counts s)).
Definition seq_uses (s : stats) : list (byte * nat) :=
  flat_map (fun p => match seq_string (fst p) with [b] => [(b, snd p)] | _ => [] end)
           (combine (sequences (st_token_set s)) (seq_counts s)).
Definition byte_uses (s : stats) : list (byte * nat) := token_uses s ++ seq_uses s.

Definition sized (s : stats) : Prop :=
  length (token_counts s) = ntokens (st_token_set s) /\
  length (seq_counts s) = length (sequences (st_token_set s)).

Lemma NoDup_incl_sub {A B} (f : A -> list B) (g : A -> list B) l :
  (forall x, f x = g x \/ f x = []) -> NoDup (flat_map g l) -> NoDup (flat_map f l).
Proof.
  intros H. induction l as [|x l IH]; cbn; intros Hn; [constructor|].
  apply NoDup_app_iff in Hn as (H1 & H2 & H3).
  destruct (H x) as [E|E]; rewrite E; [|apply IH; exact H2].
  apply NoDup_app_iff. split; [exact H1|]. split; [apply IH; exact H2|].
  intros y Hy Hi. apply (H3 y Hy). apply in_flat_map in Hi as (z & Hz & Hi).
  apply in_flat_map. exists z. split; [exact Hz|]. destruct (H z) as [Ez|Ez]; rewrite Ez in Hi; [exact Hi|destruct Hi].
Qed.

Lemma combine_fst {A B} (l : list A) (l' : list B) : length l' = length l -> map fst (combine l l') = l.
Proof.
  revert l'; induction l as [|x l IH]; intros [|y l'] H; cbn in *; try discriminate; [reflexivity|].
  f_equal. apply IH. congruence.
Qed.

Lemma singles_inj l : NoDup (singles l) -> NoDup l.
Proof. apply NoDup_map_inv. Qed.

Lemma flat_map_map {A B C} (f : A -> B) (g : B -> list C) l : flat_map g (map f l) = flat_map (fun x => g (f x)) l.
Proof. induction l; cbn; [reflexivity|]. f_equal; assumption. Qed.

Lemma map_flat_map {A B C} (f : A -> list B) (g : B -> C) l : map g (flat_map f l) = flat_map (fun x => map g (f x)) l.
Proof. induction l; cbn; [reflexivity|]. rewrite map_app. f_equal; assumption. Qed.

Lemma in_token_uses s b c : In (b, c) (token_uses s) <->
  exists i, nth_error (tokens (st_token_set s)) i = Some (Str [b]) /\ nth_error (token_counts s) i = Some c.
Proof.
  unfold token_uses. rewrite in_flat_map. split.
  - intros ((t & n) & Hi & H). cbn [fst snd] in H. destruct t as [[|b' [|? ?]]|]; try (destruct H; fail).
    destruct H as [E|[]]. injection E as <- <-. apply In_nth_error in Hi as (i & Hi). exists i.
    revert i Hi. generalize (tokens (st_token_set s)) (token_counts s). induction l as [|x l IH]; intros [|y l'] [|i] Hi; cbn in *; try discriminate.
    + injection Hi as -> ->. auto.
    + apply (IH l' i Hi).
  - intros (i & H1 & H2). exists (Str [b], c). split; [|left; reflexivity].
    revert i H1 H2. generalize (tokens (st_token_set s)) (token_counts s). induction l as [|x l IH]; intros [|y l'] [|i] H1 H2; cbn in *; try discriminate.
    + injection H1 as ->. injection H2 as ->. left; reflexivity.
    + right. eapply IH; eauto.
Qed.

Lemma in_seq_uses s b c : In (b, c) (seq_uses s) <->
  exists i q, nth_error (sequences (st_token_set s)) i = Some q /\ seq_string q = [b] /\ nth_error (seq_counts s) i = Some c.
Proof.
  unfold seq_uses. rewrite in_flat_map. split.
  - intros ((t & n) & Hi & H). cbn [fst snd] in H. destruct (seq_string t) as [|b' [|? ?]] eqn:Et; try (destruct H; fail).
    destruct H as [E|[]]. injection E as <- <-. apply In_nth_error in Hi as (i & Hi). exists i, t.
    revert i Hi. generalize (sequences (st_token_set s)) (seq_counts s). induction l as [|x l IH]; intros [|y l'] [|i] Hi; cbn in *; try discriminate.
    + injection Hi as -> ->. auto.
    + apply (IH l' i Hi).
  - intros (i & q & H1 & Eq & H2). exists (q, c). split; [|cbn; rewrite Eq; left; reflexivity].
    revert i H1 H2. generalize (sequences (st_token_set s)) (seq_counts s). induction l as [|x l IH]; intros [|y l'] [|i] H1 H2; cbn in *; try discriminate.
    + injection H1 as ->. injection H2 as ->. left; reflexivity.
    + right. eapply IH; eauto.
Qed.

Lemma uses_fst s : sized s ->
  singles (map fst (token_uses s)) = flat_map (fun t => match t with Str [b] => [[b]] | _ => [] end) (tokens (st_token_set s)) /\
  singles (map fst (seq_uses s)) = flat_map (fun q => match seq_string q with [b] => [[b]] | _ => [] end) (sequences (st_token_set s)).
Proof.
  intros (H1 & H2). unfold token_uses, seq_uses. split; rewrite map_map, map_flat_map.
  - rewrite <- (combine_fst (tokens (st_token_set s)) (token_counts s)) at 2 by exact H1.
    rewrite flat_map_map. apply flat_map_ext. intros [[[|b [|]]|] c]; reflexivity.
  - rewrite <- (combine_fst (sequences (st_token_set s)) (seq_counts s)) at 2 by exact H2.
    rewrite flat_map_map. apply flat_map_ext. intros [q c]. cbn. destruct (seq_string q) as [|b [|]]; reflexivity.
Qed.

Lemma NoDup_app_sub {A} (a b a' b' : list A) : NoDup (a ++ b) ->
  NoDup a' -> NoDup b' -> incl a' a -> incl b' b -> NoDup (a' ++ b').
Proof.
  intros H Ha Hb Ia Ib. apply NoDup_app_iff in H as (_ & _ & H). apply NoDup_app_iff.
  split; [exact Ha|]. split; [exact Hb|]. intros x Hx Hy. apply (H x); auto.
Qed.

Lemma byte_uses_nodup s : sized s -> usable (st_token_set s) -> NoDup (map fst (byte_uses s)).
Proof.
  intros Hz (Hn & _). apply singles_inj. unfold byte_uses. rewrite !map_app.
  destruct (uses_fst s Hz) as (E1 & E2). rewrite E1, E2. unfold strings in Hn.
  pose proof Hn as Hn0. apply NoDup_app_iff in Hn0 as (H1 & H2 & _).
  eapply NoDup_app_sub; [exact Hn| | | |].
  - eapply NoDup_incl_sub; [|exact H1]. intros [[|b [|]]|]; auto.
  - apply (NoDup_incl_sub _ (fun q => [seq_string q])).
    + intros q. destruct (seq_string q) as [|b [|]]; auto.
    + rewrite flat_map_concat_map, <- (map_map seq_string (fun x => [x])), <- flat_map_concat_map.
      replace (flat_map (fun x => [x]) (map seq_string (sequences (st_token_set s)))) with (map seq_string (sequences (st_token_set s))); [exact H2|].
      clear. induction (map seq_string (sequences (st_token_set s))) as [|x l IH]; cbn; [reflexivity|f_equal; exact IH].
  - intros x Hx. apply in_flat_map in Hx as (t & Ht & Hx). apply in_flat_map. exists t. split; [exact Ht|].
    destruct t as [[|b [|]]|]; auto; destruct Hx.
  - intros x Hx. apply in_flat_map in Hx as (q & Hq & Hx). destruct (seq_string q) as [|b [|]] eqn:E; [destruct Hx| |destruct Hx].
    destruct Hx as [<-|[]]. rewrite <- E. apply in_map; exact Hq.
Qed.

Lemma byte_uses_all s b : sized s -> usable (st_token_set s) -> In b (map fst (byte_uses s)).
Proof.
  intros Hz (_ & _ & Hb). specialize (Hb b).
  assert (H : In [b] (singles (map fst (byte_uses s)))).
  { unfold byte_uses. rewrite !map_app. destruct (uses_fst s Hz) as (E1 & E2). rewrite E1, E2.
    unfold strings in Hb. apply in_app_iff in Hb as [Hb|Hb]; apply in_app_iff; [left|right].
    - apply in_flat_map in Hb as (t & Ht & Hb). apply in_flat_map. exists t. split; [exact Ht|].
      destruct t as [x|]; [|destruct Hb]. destruct Hb as [->|[]]. left; reflexivity.
    - apply in_map_iff in Hb as (q & E & Hq). apply in_flat_map. exists q. split; [exact Hq|]. rewrite E. left; reflexivity. }
  apply in_map_iff in H as (b' & E & H). injection E as ->. exact H.
Qed.

Lemma byte_uses_unique s b c c' : sized s -> usable (st_token_set s) ->
  In (b, c) (byte_uses s) -> In (b, c') (byte_uses s) -> c = c'.
Proof.
  intros Hz Hu H1 H2. pose proof (byte_uses_nodup s Hz Hu) as Hn. revert Hn H1 H2.
  generalize (byte_uses s). induction l as [|[b0 c0] l IH]; cbn; intros Hn H1 H2; [destruct H1|].
  inversion Hn as [|? ? Hx Hn']; subst. destruct H1 as [E1|H1], H2 as [E2|H2].
  - congruence.
  - injection E1 as -> ->. exfalso. apply Hx. apply (in_map fst) in H2. exact H2.
  - injection E2 as -> ->. exfalso. apply Hx. apply (in_map fst) in H1. exact H1.
  - apply IH; assumption.
Qed.

(** the number of uses of a byte *)
Definition uses (s : stats) (b : byte) : nat :=
  match find (fun p => Byte.eqb (fst p) b) (byte_uses s) with Some p => snd p | None => 0 end.

Lemma uses_in s b : sized s -> usable (st_token_set s) -> In (b, uses s b) (byte_uses s).
Proof.
  intros Hz Hu. unfold uses. destruct (find _ _) as [[b' c]|] eqn:E.
  - apply find_some in E as (H & E). apply byte_eqb_eq in E. cbn in E. subst b'. exact H.
  - exfalso. pose proof (byte_uses_all s b Hz Hu) as H. apply in_map_iff in H as ([b' c] & Eb & H). cbn in Eb; subst b'.
    apply (find_none _ _ E) in H. cbn in H. rewrite (proj2 (byte_eqb_eq b b) eq_refl) in H. discriminate.
Qed.

Lemma uses_eq s b c : sized s -> usable (st_token_set s) -> In (b, c) (byte_uses s) -> uses s b = c.
Proof. intros Hz Hu H. eapply byte_uses_unique; eauto. apply uses_in; assumption. Qed.

(** ** The table of [SimpleBytesOptimizer] *)
Lemma simple_tok_fold toks (cnts : list nat) : forall k done t, length cnts = length toks -> length done = k -> length t = 256 ->
  mfold (fun bc p =>
          match snd p with
          | Str [b] => c <- idx (done ++ cnts) (fst p) ;; idx_upd bc (b2n b) (fun _ => c)
          | _ => Ret bc
          end) (enum_from k toks) t
  = Ret (fold_left wr (flat_map (fun p => match fst p with Str [b] => [(b, snd p)] | _ => [] end) (combine toks cnts)) t).
Proof.
  revert cnts. induction toks as [|tok toks IH]; intros [|c cnts] k done t Hl Hd Ht; try discriminate; [reflexivity|].
  cbn [enum_from mfold combine flat_map fst snd].
  assert (E : idx (done ++ c :: cnts) k = Ret c) by (apply idx_mid; symmetry; exact Hd).
  assert (Hrec : forall t, length t = 256 ->
     mfold (fun bc p =>
          match snd p with
          | Str [b] => c0 <- idx (done ++ c :: cnts) (fst p) ;; idx_upd bc (b2n b) (fun _ => c0)
          | _ => Ret bc
          end) (enum_from (S k) toks) t
     = Ret (fold_left wr (flat_map (fun p => match fst p with Str [b] => [(b, snd p)] | _ => [] end) (combine toks cnts)) t)).
  { intros t0 Ht0. rewrite <- (IH cnts (S k) (done ++ [c]) t0).
    - rewrite <- app_assoc. reflexivity.
    - cbn in Hl. congruence.
    - rewrite app_length; cbn; lia.
    - exact Ht0. }
  destruct tok as [[|b [|? ?]]|]; cbn [bind]; try (cbn [app]; apply Hrec; exact Ht).
  rewrite E. cbn [bind]. unfold idx_upd. pose proof (b2n_lt b).
  replace (b2n b <? length t) with true by (symmetry; apply Nat.ltb_lt; lia). cbn [bind app fold_left].
  apply Hrec. unfold wr; rewrite upd_length. exact Ht.
Qed.

Lemma simple_seq_fold qs (cnts : list nat) : forall k done t, length cnts = length qs -> length done = k -> length t = 256 ->
  mfold (fun bc p =>
          match seq_string (snd p) with
          | [b] => c <- idx (done ++ cnts) (fst p) ;; idx_upd bc (b2n b) (fun _ => c)
          | _ => Ret bc
          end) (enum_from k qs) t
  = Ret (fold_left wr (flat_map (fun p => match seq_string (fst p) with [b] => [(b, snd p)] | _ => [] end) (combine qs cnts)) t).
Proof.
  revert cnts. induction qs as [|q qs IH]; intros [|c cnts] k done t Hl Hd Ht; try discriminate; [reflexivity|].
  cbn [enum_from mfold combine flat_map fst snd].
  assert (E : idx (done ++ c :: cnts) k = Ret c) by (apply idx_mid; symmetry; exact Hd).
  assert (Hrec : forall t, length t = 256 ->
     mfold (fun bc p =>
          match seq_string (snd p) with
          | [b] => c0 <- idx (done ++ c :: cnts) (fst p) ;; idx_upd bc (b2n b) (fun _ => c0)
          | _ => Ret bc
          end) (enum_from (S k) qs) t
     = Ret (fold_left wr (flat_map (fun p => match seq_string (fst p) with [b] => [(b, snd p)] | _ => [] end) (combine qs cnts)) t)).
  { intros t0 Ht0. rewrite <- (IH cnts (S k) (done ++ [c]) t0).
    - rewrite <- app_assoc. reflexivity.
    - cbn in Hl. congruence.
    - rewrite app_length; cbn; lia.
    - exact Ht0. }
  destruct (seq_string q) as [|b [|? ?]]; cbn [bind]; try (cbn [app]; apply Hrec; exact Ht).
  rewrite E. cbn [bind]. unfold idx_upd. pose proof (b2n_lt b).
  replace (b2n b <? length t) with true by (symmetry; apply Nat.ltb_lt; lia). cbn [bind app fold_left].
  apply Hrec. unfold wr; rewrite upd_length. exact Ht.
Qed.

Lemma simple_counts_ok s : sized s ->
  simple_counts s = Ret (fold_left wr (byte_uses s) (repeat 0 256)).
Proof.
  intros (H1 & H2). unfold simple_counts, enum.
  pose proof (simple_tok_fold _ _ 0 [] (repeat 0 256) H1 eq_refl (repeat_length _ _)) as E.
  cbn [app] in E. rewrite E. cbn [bind]. fold (token_uses s). clear E.
  assert (Hl : length (fold_left wr (token_uses s) (repeat 0 256)) = 256)
    by (rewrite wr_length; apply repeat_length).
  pose proof (simple_seq_fold _ _ 0 [] _ H2 eq_refl Hl) as E.
  cbn [app] in E. rewrite E. fold (seq_uses s).
  unfold byte_uses. rewrite fold_left_app. reflexivity.
Qed.

Lemma simple_count_at s b : sized s -> usable (st_token_set s) ->
  nth (b2n b) (fold_left wr (byte_uses s) (repeat 0 256)) 0 = uses s b.
Proof.
  intros Hz Hu. apply nth_error_nth. apply wr_in.
  - apply repeat_length.
  - apply byte_uses_nodup; assumption.
  - apply uses_in; assumption.
Qed.
