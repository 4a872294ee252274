(** * Facts about [HuffOptimizer]. *)
From Verif Require Import Base BaseLemmas TokenSetModel TokenizerModel TokSpec SortLemmas
  TokenSetProof TokenSetProof2 TokenizerTheory OptBytesModel OptBytesProof OptBytesProof2 OptBytesProof3.

(** ** The token set for one number of extension tokens *)

(** [qs] encodes the bytes of [bytes] that are not among the tokens [tops]:
    each sequence is one of the tokens [tops] (they follow the [n_ext]
    extension tokens) and then extension tokens; no two are equal. *)
Record huff_codes (n_ext : nat) (tops : list byte) (qs : list sequence) (bytes : list byte) : Prop := {
  hc_form : forall q, In q qs -> exists b h enc, q = mkSeq [b] (h :: enc) /\
              n_ext <= h < n_ext + length tops /\ enc <> [] /\ forall d, In d enc -> d < n_ext;
  hc_distinct : NoDup (map seq_tokens qs);
  hc_bytes : Permutation (singles tops ++ map seq_string qs) (singles bytes)
}.

Definition huff_set (n_ext : nat) (p : processing) (ss : list bstr) (qs : list sequence) : tokenset :=
  mkTS n_ext BytesHuff p true (ext_tokens n_ext ++ map Str ss) qs.

Lemma bytes_tokenset_ok counts n_char n_ext p :
  increasing counts -> positive counts -> 1 <= n_char -> 1 <= n_ext < 256 ->
  exists tops qs, optimize_bytes_tokenset counts n_char n_ext p = Ret (huff_set n_ext p (singles tops) qs) /\
    length tops = Nat.min n_char (length counts) /\ huff_codes n_ext tops qs (map fst counts).
Proof.
  intros Hs Hp Hc (He & He'). unfold optimize_bytes_tokenset, ts_new.
  rewrite (proj2 (Nat.ltb_lt _ _)) by exact He'. cbn [assert_that bind].
  destruct (optimize_splits_ok counts n_char Hc Hs) as (splits & groups & E & Hcc & Hlen & HF).
  rewrite E. cbn [bind].
  set (body := fun (ts : tokenset) (e : nat * chars_split) =>
           let '(i, sp) := e in
           '(ts, top_id) <- add_token ts [cs_top sp] ;;
           sub <- sub_table counts splits i sp ;;
           match sub with
           | None => Ret ts
           | Some sub =>
               encs <- optimize_ext_encoding (length sub) sub n_ext ;;
               Ret (fold_left (fun ts e => add_sequence ts [fst e] (top_id :: snd e)) encs ts)
           end).
  assert (G : forall todo done gd gt qs, splits = done ++ todo -> groups = gd ++ gt ->
     length done = length gd -> huff_codes n_ext (map cs_top done) qs (map fst (concat gd)) ->
     exists qs', mfold body (enum_from (length done) todo) (huff_set n_ext p (singles (map cs_top done)) qs)
       = Ret (huff_set n_ext p (singles (map cs_top splits)) qs') /\
       huff_codes n_ext (map cs_top splits) qs' (map fst counts)).
  { induction todo as [|sp todo IHt]; intros done gd gt qs Es Eg Hl2 Hg.
    - cbn. rewrite app_nil_r in Es. subst done. exists qs. split; [reflexivity|].
      assert (gt = []). { apply (f_equal (@length _)) in Eg. rewrite app_length in *.
        pose proof (Forall2_length _ _ _ HF). destruct gt; [reflexivity|cbn in *; lia]. }
      subst gt. rewrite app_nil_r in Eg. rewrite <- Hcc, Eg. exact Hg.
    - destruct gt as [|g gt].
      { exfalso. apply (f_equal (@length _)) in Eg, Es. rewrite app_length in *. cbn in *.
        pose proof (Forall2_length _ _ _ HF). lia. }
      cbn [enum_from mfold]. unfold body at 1.
      rewrite add_token_ok by discriminate. cbn [bind].
      destruct (sub_table_ok counts splits groups (length done) sp g Hs Hp Hcc HF) as (g' & Hr & Est).
      { rewrite Es, nth_error_app2, Nat.sub_diag by lia. reflexivity. }
      { rewrite Eg, Hl2, nth_error_app2, Nat.sub_diag by lia. reflexivity. }
      rewrite Est. cbn [bind].
      assert (Hgin : increasing g /\ positive g).
      { rewrite <- Hcc, Eg in Hs, Hp. rewrite concat_app in *. cbn [concat] in *. split.
        - apply SS_app in Hs as (_ & Hs & _). apply SS_app in Hs as (Hs & _). exact Hs.
        - intros x Hx. apply Hp. apply in_app_iff; right; apply in_app_iff; left; exact Hx. }
      assert (Hg' : exists encs, match g' with [] => encs = [] | _ =>
                 optimize_ext_encoding (length g') g' n_ext = Ret encs end /\ good_codes n_ext (map fst g') encs).
      { destruct g' as [|x g'].
        - exists []. split; [reflexivity|]. split; cbn; try contradiction; constructor.
        - apply ext_encoding_ok; [exact He|reflexivity| |].
          + eapply removed_increasing; [exact Hr|apply Hgin].
          + eapply removed_positive; [exact Hr|apply Hgin]. }
      destruct Hg' as (encs & Henc & Hgc).
      destruct (removed_perm _ _ _ Hr) as (Hperm & _).
      (* no sequence so far encodes the new token *)
      assert (Hfresh : forall q, In q qs -> seq_string q <> [cs_top sp]).
      { intros q Hq Eq. assert (Hnd : NoDup (map fst counts)) by (apply increasing_NoDup; exact Hs).
        rewrite <- Hcc, Eg, concat_app, map_app in Hnd. cbn [concat] in Hnd. rewrite map_app in Hnd.
        apply NoDup_app_iff in Hnd as (_ & _ & Hnd). apply (Hnd (cs_top sp)).
        - assert (Hi : In [cs_top sp] (singles (map fst (concat gd)))).
          { eapply Permutation_in; [apply (hc_bytes _ _ _ _ Hg)|]. apply in_app_iff; right. rewrite <- Eq.
            apply in_map; exact Hq. }
          apply in_map_iff in Hi as (b & Eb & Hb). injection Eb as ->. exact Hb.
        - apply in_app_iff; left. eapply Permutation_in; [symmetry; exact Hperm|left; reflexivity]. }
      set (id := length (tokens (huff_set n_ext p (singles (map cs_top done)) qs))).
      assert (Eid : id = n_ext + length done).
      { unfold id, huff_set, ext_tokens; cbn [tokens]. rewrite app_length, !map_length, seq_length. reflexivity. }
      clearbody id.
      set (qs' := qs ++ map (fun e => mkSeq [fst e] (id :: snd e)) encs).
      assert (Eadd : add_token_unchecked (huff_set n_ext p (singles (map cs_top done)) qs) [cs_top sp]
                     = huff_set n_ext p (singles (map cs_top (done ++ [sp]))) qs).
      { unfold add_token_unchecked, huff_set; cbn [n_ext_tokens ts_type ts_processing split_paragraphs tokens sequences].
        rewrite !map_app, app_assoc. f_equal. apply filter_id. intros q Hq. apply negb_true_iff, bstr_eqb_neq. auto. }
      rewrite Eadd.
      assert (Eb : (match (match g' with [] => None | _ => Some g' end) with
                 | None => Ret (huff_set n_ext p (singles (map cs_top (done ++ [sp]))) qs)
                 | Some sub => encs <- optimize_ext_encoding (length sub) sub n_ext ;;
                     Ret (fold_left (fun ts e => add_sequence ts [fst e] (id :: snd e)) encs
                            (huff_set n_ext p (singles (map cs_top (done ++ [sp]))) qs))
                 end) = Ret (huff_set n_ext p (singles (map cs_top (done ++ [sp]))) qs')).
      { unfold qs'. destruct g' as [|x g']; [subst encs; cbn [map]; rewrite app_nil_r; reflexivity|].
        rewrite Henc. cbn [bind].
        rewrite (fold_add_sequence (fun e : byte * list nat => [fst e]) (fun e => id :: snd e)). reflexivity. }
      rewrite Eb. cbn [bind].
      replace (S (length done)) with (length (done ++ [sp])) by (rewrite app_length; cbn; lia).
      apply (IHt (done ++ [sp]) (gd ++ [g]) gt qs').
      + rewrite <- app_assoc. exact Es.
      + rewrite <- app_assoc. exact Eg.
      + rewrite !app_length. cbn. lia.
      + destruct Hgc as [C1 C2 C3 C4]. destruct Hg as [H1 H2 H3]. split.
        * intros q Hq. unfold qs' in Hq. apply in_app_iff in Hq as [Hq|Hq].
          -- destruct (H1 q Hq) as (b & h & enc & -> & Hh & Hrest). exists b, h, enc.
             split; [reflexivity|]. split; [rewrite map_length in *; rewrite app_length; lia|exact Hrest].
          -- apply in_map_iff in Hq as (e & <- & Hq). exists (fst e), id, (snd e). split; [reflexivity|].
             split; [rewrite map_length, app_length; cbn [length]; lia|]. split; [apply C2; exact Hq|].
             intros d. apply C3; exact Hq.
        * unfold qs'. rewrite map_app, map_map. cbn [seq_tokens]. apply NoDup_app_iff. split; [exact H2|]. split.
          -- rewrite <- (map_map snd (cons id)). apply NoDup_map_inj; [congruence|exact C4].
          -- intros x Hx Hy. apply in_map_iff in Hx as (q & <- & Hq). apply in_map_iff in Hy as (e & Ey & _).
             destruct (H1 q Hq) as (b & h & enc & -> & Hh & _). cbn in Ey. injection Ey as Ey _.
             rewrite map_length in Hh. lia.
        * unfold qs'. rewrite concat_app, !map_app, !map_map. cbn [concat map seq_string]. rewrite app_nil_r.
          rewrite <- app_assoc.
          transitivity ((singles (map cs_top done) ++ map seq_string qs) ++ [[cs_top sp]] ++ map (fun e => [fst e]) encs).
          { rewrite <- !app_assoc. rewrite map_map. apply Permutation_app_head.
            rewrite !app_assoc. apply Permutation_app_tail, Permutation_app_comm. }
          rewrite H3, map_map. apply Permutation_app; [reflexivity|].
          rewrite <- (map_map fst (fun b : byte => [b]) encs), <- (map_map fst (fun b : byte => [b]) g).
          cbn [app]. rewrite C1. change ([cs_top sp] :: singles (map fst g')) with (singles (cs_top sp :: map fst g')).
          apply Permutation_map. symmetry; exact Hperm. }
  assert (E0 : ts_new_unchecked n_ext p BytesHuff true = huff_set n_ext p (singles (map cs_top [])) []).
  { unfold ts_new_unchecked, huff_set, ext_tokens. cbn. rewrite app_nil_r. reflexivity. }
  rewrite E0.
  destruct (G splits [] [] groups []) as (qs & Em & Hg); auto.
  - split; cbn; [intros q []|constructor|constructor].
  - exists (map cs_top splits), qs. split; [exact Em|]. split; [|exact Hg].
    rewrite map_length, (Forall2_length _ _ _ HF). exact Hlen.
Qed.

(** ** The table of counts *)
Definition cnt (counts : ctable) (b : byte) : nat := snd (nth (b2n b) counts (x00, 0)).

(** A table with one positive entry for each byte, in order. *)
Record full_table (t : ctable) : Prop := {
  ft_bytes : map fst t = all_bytes;
  ft_positive : positive t
}.

Lemma all_bytes_increasing : StronglySorted (fun a b => b2n a < b2n b) all_bytes.
Proof.
  unfold all_bytes.
  assert (G : forall n a, a + n <= 256 -> StronglySorted (fun a b => b2n a < b2n b) (map n2b (seq a n))).
  { induction n as [|n IH]; intros a Ha; cbn [seq map]; constructor; [apply IH; lia|].
    apply Forall_forall. intros x Hx. apply in_map_iff in Hx as (y & <- & Hy). apply in_seq in Hy.
    rewrite !b2n_n2b_small by lia. lia. }
  apply G. lia.
Qed.

Lemma full_increasing t : full_table t -> increasing t.
Proof.
  intros [H _]. unfold increasing. pose proof all_bytes_increasing as G. rewrite <- H in G. clear H.
  induction t as [|x t IH]; cbn in *; constructor.
  - apply IH. inversion G; assumption.
  - inversion G as [|? ? _ Hx]; subst. rewrite Forall_forall in *. intros y Hy. apply Hx. apply in_map; exact Hy.
Qed.

Lemma full_length t : full_table t -> length t = 256.
Proof. intros [H _]. rewrite <- (map_length fst), H. apply all_bytes_length. Qed.

Lemma full_nth t b : full_table t -> nth_error t (b2n b) = Some (b, cnt t b) /\ 1 <= cnt t b.
Proof.
  intros [H Hp]. destruct (nth_error t (b2n b)) as [[b' c]|] eqn:E.
  - assert (E1 : nth_error (map fst t) (b2n b) = Some b') by (rewrite nth_error_map, E; reflexivity).
    rewrite H, nth_error_all_bytes in E1. injection E1 as <-.
    unfold cnt. rewrite (nth_error_nth _ _ _ E). cbn [snd]. split; [reflexivity|].
    apply (Hp (b, c)). eapply nth_error_In; exact E.
  - apply nth_error_None in E. rewrite <- (map_length fst), H, all_bytes_length in E. pose proof (b2n_lt b). lia.
Qed.

Lemma full_wr t b c : full_table t -> full_table (upd (b2n b) (fun _ => (b, c + 1)) t).
Proof.
  intros F. pose proof F as [H Hp]. split.
  - rewrite <- H. pose proof (proj1 (full_nth t b F)) as E. revert E. generalize (b2n b) (cnt t b).
    clear. induction t as [|x t IH]; intros [|n] m E; cbn in *; try reflexivity.
    + injection E as ->. reflexivity.
    + f_equal. eapply IH; exact E.
  - intros x Hx. apply In_nth_error in Hx as (i & Hi). rewrite nth_error_upd in Hi.
    destruct (i =? b2n b).
    + destruct (nth_error t i); [|discriminate]. injection Hi as <-. cbn; lia.
    + apply Hp. eapply nth_error_In; exact Hi.
Qed.

Lemma full_start : full_table (map (fun b => (b, 1)) all_bytes).
Proof.
  split.
  - rewrite map_map. cbn [fst]. apply map_id.
  - intros x Hx. apply in_map_iff in Hx as (b & <- & _). cbn; lia.
Qed.

Definition single_strings (ts : tokenset) : Prop :=
  forall q, In q (sequences ts) -> length (seq_string q) = 1.

Definition huff_write (p : byte * nat) : byte * (byte * nat) := (fst p, (fst p, snd p + 1)).

Lemma huff_tok_fold l : forall t, length t = 256 ->
  mfold (fun (t : ctable) p =>
          match fst p with
          | Str [b] => idx_upd t (b2n b) (fun _ => (b, snd p + 1))
          | _ => Ret t
          end) l t
  = Ret (fold_left wr (map huff_write (flat_map (fun p => match fst p with Str [b] => [(b, snd p)] | _ => [] end) l)) t).
Proof.
  induction l as [|[tok c] l IH]; intros t Ht; [reflexivity|]. cbn [mfold flat_map fst snd].
  destruct tok as [[|b [|? ?]]|]; cbn [bind app map fold_left]; try (apply IH; exact Ht).
  unfold idx_upd. pose proof (b2n_lt b).
  replace (b2n b <? length t) with true by (symmetry; apply Nat.ltb_lt; lia). cbn [bind].
  rewrite IH by (rewrite upd_length; exact Ht). reflexivity.
Qed.

Lemma huff_seq_fold l : (forall p, In p l -> length (seq_string (fst p)) = 1) -> forall t, length t = 256 ->
  mfold (fun (t : ctable) p =>
          _ <- assert_that (length (seq_string (fst p)) =? 1) ;;
          b <- idx (seq_string (fst p)) 0 ;;
          idx_upd t (b2n b) (fun _ => (b, snd p + 1))) l t
  = Ret (fold_left wr (map huff_write (flat_map (fun p => match seq_string (fst p) with [b] => [(b, snd p)] | _ => [] end) l)) t).
Proof.
  induction l as [|[q c] l IH]; intros Hl t Ht; [reflexivity|]. cbn [mfold flat_map fst snd].
  pose proof (Hl _ (or_introl eq_refl)) as H1. cbn [fst] in H1.
  destruct (seq_string q) as [|b [|? ?]]; try discriminate. cbn [length Nat.eqb assert_that bind idx nth_error unwrap app map fold_left].
  unfold idx. cbn [nth_error unwrap bind]. unfold idx_upd. pose proof (b2n_lt b).
  replace (b2n b <? length t) with true by (symmetry; apply Nat.ltb_lt; lia). cbn [bind].
  rewrite IH; [reflexivity| |rewrite upd_length; exact Ht]. intros p Hp; apply Hl; right; exact Hp.
Qed.

Lemma full_writes ws : forall t, full_table t -> full_table (fold_left wr (map huff_write ws) t).
Proof.
  induction ws as [|[b c] ws IH]; intros t F; cbn [map fold_left]; [exact F|]. apply IH. apply full_wr; exact F.
Qed.

Lemma huff_counts_ok s : single_strings (st_token_set s) ->
  huff_counts s = Ret (fold_left wr (map huff_write (byte_uses s)) (map (fun b => (b, 1)) all_bytes)) /\
  full_table (fold_left wr (map huff_write (byte_uses s)) (map (fun b => (b, 1)) all_bytes)).
Proof.
  intros H. split; [|apply full_writes, full_start]. unfold huff_counts.
  rewrite huff_tok_fold by (rewrite map_length; apply all_bytes_length). cbn [bind]. fold (token_uses s).
  rewrite huff_seq_fold.
  - fold (seq_uses s). unfold byte_uses. rewrite map_app, fold_left_app. reflexivity.
  - intros [q c] Hq. apply in_combine_l in Hq. apply H; exact Hq.
  - rewrite wr_length, map_length. apply all_bytes_length.
Qed.

Lemma huff_counts_at s b : sized s -> usable (st_token_set s) ->
  cnt (fold_left wr (map huff_write (byte_uses s)) (map (fun b => (b, 1)) all_bytes)) b = uses s b + 1.
Proof.
  intros Hz Hu. unfold cnt.
  rewrite (nth_error_nth _ _ (x00, 0) (wr_in (map huff_write (byte_uses s)) b (b, uses s b + 1) _
     ltac:(rewrite map_length; apply all_bytes_length)
     ltac:(rewrite map_map; apply byte_uses_nodup; assumption)
     ltac:(apply in_map_iff; exists (b, uses s b); split; [reflexivity|apply uses_in; assumption]))).
  reflexivity.
Qed.

(** ** The cost of a candidate *)
Definition seq_byte (q : sequence) : byte := match seq_string q with b :: _ => b | [] => x00 end.

Definition huff_cost (counts : ctable) (tops : list byte) (qs : list sequence) : nat :=
  sum (map (cnt counts) tops) + sum (map (fun q => cnt counts (seq_byte q) * length (seq_tokens q)) qs).

Lemma huff_total_ok counts n_ext p tops qs : full_table counts ->
  (forall q, In q qs -> length (seq_string q) = 1) ->
  huff_total counts (huff_set n_ext p (singles tops) qs) = Ret (huff_cost counts tops qs).
Proof.
  intros F Hq. unfold huff_total, huff_set; cbn [tokens sequences].
  assert (Eidx : forall b, idx counts (b2n b) = Ret (b, cnt counts b)).
  { intros b. unfold idx. rewrite (proj1 (full_nth _ b F)). reflexivity. }
  rewrite mfold_app.
  match goal with |- context [mfold ?f (ext_tokens n_ext) 0] => set (f1 := f) end.
  assert (E1 : mfold f1 (ext_tokens n_ext) 0 = Ret 0).
  { unfold ext_tokens. induction (seq 0 n_ext) as [|i l IH]; [reflexivity|]. exact IH. }
  rewrite E1. cbn [bind].
  assert (E2 : forall l acc, mfold f1 (map Str (singles l)) acc = Ret (acc + sum (map (cnt counts) l))).
  { induction l as [|b l IH]; intros acc; cbn [map mfold]; [unfold sum; cbn; f_equal; lia|].
    unfold f1 at 1. cbn [length Nat.eqb assert_that bind]. unfold idx at 1. cbn [nth_error unwrap bind].
    rewrite Eidx. cbn [bind snd]. rewrite IH. unfold sum; cbn. f_equal. lia. }
  rewrite E2. cbn [bind]. unfold huff_cost. rewrite Nat.add_0_l. generalize (sum (map (cnt counts) tops)).
  induction qs as [|q qs IH]; intros acc; cbn [mfold map].
  - unfold sum; cbn. f_equal; lia.
  - pose proof (Hq q (or_introl eq_refl)) as Hl. unfold seq_byte at 1. destruct (seq_string q) as [|b [|? ?]]; try discriminate.
    cbn [length Nat.eqb assert_that bind]. unfold idx at 1. cbn [nth_error unwrap bind]. rewrite Eidx. cbn [bind snd].
    rewrite IH by (intros q' Hq'; apply Hq; right; exact Hq'). unfold sum; cbn. f_equal. lia.
Qed.

Lemma codes_single n_ext tops qs bytes : huff_codes n_ext tops qs bytes ->
  forall q, In q qs -> length (seq_string q) = 1 /\ 2 <= length (seq_tokens q) /\ seq_string q = [seq_byte q].
Proof.
  intros [H _ _] q Hq. destruct (H q Hq) as (b & h & enc & -> & _ & He & _). cbn.
  split; [reflexivity|]. split; [destruct enc; [congruence|cbn; lia]|reflexivity].
Qed.

Lemma codes_bytes n_ext tops qs bytes : huff_codes n_ext tops qs bytes ->
  Permutation (tops ++ map seq_byte qs) bytes.
Proof.
  intros H. pose proof (hc_bytes _ _ _ _ H) as Hp.
  assert (E : singles tops ++ map seq_string qs = singles (tops ++ map seq_byte qs)).
  { rewrite map_app, map_map. f_equal. apply map_ext_in. intros q Hq. apply (codes_single _ _ _ _ H q Hq). }
  rewrite E in Hp. apply (Permutation_map (fun s => match s with b :: _ => b | [] => x00 end)) in Hp.
  rewrite !map_map, !map_id in Hp. exact Hp.
Qed.

Lemma huff_cost_ge counts n_ext tops qs bytes : huff_codes n_ext tops qs bytes ->
  sum (map (cnt counts) bytes) <= huff_cost counts tops qs.
Proof.
  intros H. pose proof (codes_bytes _ _ _ _ H) as Hp.
  rewrite <- (sum_perm _ _ (Permutation_map (cnt counts) Hp)), map_app, sum_app. unfold huff_cost.
  apply Nat.add_le_mono_l. rewrite map_map. pose proof (codes_single _ _ _ _ H) as Hs. clear -Hs.
  induction qs as [|q qs IH]; cbn [map]; unfold sum in *; cbn [fold_right]; [lia|].
  apply Nat.add_le_mono.
  - destruct (Hs q (or_introl eq_refl)) as (_ & Hl & _). nia.
  - apply IH. intros q' Hq'. apply Hs. right; exact Hq'.
Qed.

Lemma huff_cost_all counts n_ext tops qs bytes : huff_codes n_ext tops qs bytes ->
  length tops = length bytes -> qs = [] /\ huff_cost counts tops qs = sum (map (cnt counts) bytes).
Proof.
  intros H Hl. pose proof (codes_bytes _ _ _ _ H) as Hp. pose proof (Permutation_length Hp) as Hl2.
  rewrite app_length, map_length in Hl2. destruct qs; [|cbn in Hl2; lia]. split; [reflexivity|].
  cbn in Hp. rewrite app_nil_r in Hp. unfold huff_cost. rewrite (sum_perm _ _ (Permutation_map (cnt counts) Hp)).
  cbn. lia.
Qed.

(** ** The search over the number of extension tokens *)
Section Search.
Variables (counts : ctable) (n : nat) (p : processing).
Hypothesis F : full_table counts.

Definition candidate (n_ext : nat) (tops : list byte) (qs : list sequence) : Prop :=
  optimize_bytes_tokenset counts (n - n_ext) n_ext p = Ret (huff_set n_ext p (singles tops) qs) /\
  length tops = Nat.min (n - n_ext) 256 /\ huff_codes n_ext tops qs all_bytes.

Lemma candidate_exists n_ext : 1 <= n_ext < n -> n_ext < 256 -> exists tops qs, candidate n_ext tops qs.
Proof.
  intros H1 H2. destruct (bytes_tokenset_ok counts (n - n_ext) n_ext p (full_increasing _ F) (ft_positive _ F)) as (tops & qs & E & Hl & Hc); [lia|lia|].
  exists tops, qs. split; [exact E|]. rewrite full_length in Hl by exact F. rewrite (ft_bytes _ F) in Hc. auto.
Qed.

Lemma round_eq best n_ext tops qs : n_ext <= n -> candidate n_ext tops qs ->
  huff_round counts n p best n_ext =
  Ret (match best with
       | None => Some (huff_set n_ext p (singles tops) qs, huff_cost counts tops qs)
       | Some (t, b) => if huff_cost counts tops qs <? b
                        then Some (huff_set n_ext p (singles tops) qs, huff_cost counts tops qs) else Some (t, b)
       end).
Proof.
  intros Hn (E & _ & Hc). unfold huff_round. rewrite checked_sub_le by exact Hn. cbn [bind].
  rewrite E. cbn [bind]. rewrite huff_total_ok by (auto; intros q Hq; apply (codes_single _ _ _ _ Hc q Hq)). cbn [bind].
  destruct best as [[t b]|]; [destruct (_ <? b)|]; reflexivity.
Qed.

Definition first_best (l : list nat) (n_ext : nat) (tops : list byte) (qs : list sequence) : Prop :=
  candidate n_ext tops qs /\ exists l1 l2, l = l1 ++ n_ext :: l2 /\
    (forall e t q, In e l1 -> candidate e t q -> huff_cost counts tops qs < huff_cost counts t q) /\
    (forall e t q, In e l2 -> candidate e t q -> huff_cost counts tops qs <= huff_cost counts t q).

Lemma candidate_unique e t q t' q' : candidate e t q -> candidate e t' q' -> huff_cost counts t q = huff_cost counts t' q'.
Proof.
  intros (E & _ & H1) (E' & _ & H2). rewrite E in E'. injection E' as E1 E2.
  apply app_inv_head in E1. apply (f_equal (map (fun t => match t with Str (b :: _) => b | _ => x00 end))) in E1.
  rewrite !map_map, !map_id in E1. subst. reflexivity.
Qed.

Lemma search_ok l : (forall e, In e l -> 1 <= e < n /\ e < 256) -> l <> [] ->
  exists n_ext tops qs, mfold (huff_round counts n p) l None
     = Ret (Some (huff_set n_ext p (singles tops) qs, huff_cost counts tops qs)) /\ first_best l n_ext tops qs.
Proof.
  intros Hl Hne.
  assert (G : forall todo done e0 t0 q0, l = done ++ todo -> first_best done e0 t0 q0 ->
    exists n_ext tops qs, mfold (huff_round counts n p) todo (Some (huff_set e0 p (singles t0) q0, huff_cost counts t0 q0))
     = Ret (Some (huff_set n_ext p (singles tops) qs, huff_cost counts tops qs)) /\ first_best l n_ext tops qs).
  { induction todo as [|e todo IH]; intros done e0 t0 q0 E Hb.
    - rewrite app_nil_r in E. subst done. exists e0, t0, q0. auto.
    - cbn [mfold]. assert (He : 1 <= e < n /\ e < 256) by (apply Hl; rewrite E; apply in_app_iff; right; left; reflexivity).
      destruct (candidate_exists e) as (t & q & Hc); [lia|lia|].
      rewrite (round_eq _ e t q) by (auto; lia). cbn [bind].
      assert (E' : l = (done ++ [e]) ++ todo) by (rewrite <- app_assoc; exact E).
      destruct Hb as (Hc0 & l1 & l2 & Ed & H1 & H2).
      destruct (Nat.ltb_spec (huff_cost counts t q) (huff_cost counts t0 q0)) as [Hlt|Hge].
      + apply (IH (done ++ [e]) e t q E'). split; [exact Hc|]. exists done, []. split; [reflexivity|]. split.
        * intros e' t' q' Hi Hc'. subst done. apply in_app_iff in Hi as [Hi|[->|Hi]].
          -- specialize (H1 e' t' q' Hi Hc'). lia.
          -- rewrite <- (candidate_unique _ _ _ _ _ Hc0 Hc'). exact Hlt.
          -- specialize (H2 e' t' q' Hi Hc'). lia.
        * intros e' t' q' [].
      + apply (IH (done ++ [e]) e0 t0 q0 E'). split; [exact Hc0|]. exists l1, (l2 ++ [e]).
        split; [subst done; rewrite <- app_assoc; reflexivity|]. split; [exact H1|].
        intros e' t' q' Hi Hc'. apply in_app_iff in Hi as [Hi|[<-|[]]]; [eapply H2; eauto|].
        rewrite <- (candidate_unique _ _ _ _ _ Hc Hc'). exact Hge. }
  destruct l as [|e l]; [congruence|]. cbn [mfold].
  destruct (Hl e (or_introl eq_refl)) as (He & He2).
  destruct (candidate_exists e) as (t & q & Hc); [lia|lia|]. rewrite (round_eq _ e t q) by (auto; lia). cbn [bind].
  apply (G l [e] e t q eq_refl). split; [exact Hc|]. exists [], []. split; [reflexivity|]. split; intros ? ? ? [].
Qed.
End Search.

Lemma add_longs_huff n_ext p ss l qs :
  (forall q, In q qs -> length (seq_string q) = 1) -> (forall s, In s l -> 1 < length s) ->
  fold_left add_token_unchecked l (huff_set n_ext p ss qs) = huff_set n_ext p (ss ++ l) qs.
Proof.
  intros Hq Hl. rewrite fold_add_unchecked. unfold huff_set; cbn [n_ext_tokens ts_type ts_processing split_paragraphs tokens sequences].
  rewrite map_app, app_assoc. f_equal. apply filter_id. intros q Hi. apply negb_true_iff, not_true_iff_false.
  rewrite in_strs_true. intros H. specialize (Hq q Hi). specialize (Hl _ H). lia.
Qed.

Lemma huff_bytes_ok s n : single_strings (st_token_set s) -> 3 <= n ->
  exists counts n_ext tops qs,
    huff_counts s = Ret counts /\ full_table counts /\
    huff_bytes s n = Ret (huff_set n_ext (ts_processing (st_token_set s))
                            (singles tops ++ longs (str_tokens (st_token_set s))) qs) /\
    2 <= n_ext <= 10 /\ n_ext < n /\ length tops + n_ext = Nat.min n 258 /\
    huff_codes n_ext tops qs all_bytes /\
    (forall e t q, 2 <= e <= 10 -> e < n ->
       candidate counts n (ts_processing (st_token_set s)) e t q -> huff_cost counts tops qs <= huff_cost counts t q).
Proof.
  intros Hs Hn. destruct (huff_counts_ok s Hs) as (Ec & F).
  set (counts := fold_left wr (map huff_write (byte_uses s)) (map (fun b => (b, 1)) all_bytes)) in *.
  set (p := ts_processing (st_token_set s)).
  unfold huff_bytes. rewrite Ec. cbn [bind]. rewrite checked_sub_le by lia. cbn [bind].
  set (l := seq 2 (Nat.min (n - 1) 10 - 1)).
  assert (Hl : forall e, In e l <-> 2 <= e <= 10 /\ e < n).
  { intros e. unfold l. rewrite in_seq. lia. }
  destruct (search_ok counts n p F l) as (n_ext & tops & qs & Em & Hc & l1 & l2 & El & H1 & H2).
  { intros e He. apply Hl in He. lia. }
  { unfold l. destruct (Nat.min (n - 1) 10 - 1) eqn:E; [lia|discriminate]. }
  fold p. rewrite Em. cbn [bind unwrap]. rewrite add_long_ok.
  assert (Hin : In n_ext l) by (rewrite El; apply in_app_iff; right; left; reflexivity).
  apply Hl in Hin as (Hr & Hlt). pose proof Hc as (Hc1 & Hc2 & Hc3).
  exists counts, n_ext, tops, qs. split; [reflexivity|]. split; [exact F|]. split.
  { f_equal. apply add_longs_huff.
    - intros q Hq. apply (codes_single _ _ _ _ Hc3 q Hq).
    - intros x Hx. apply in_longs in Hx. apply Hx. }
  split; [exact Hr|]. split; [exact Hlt|]. split; [|split; [exact Hc3|]].
  - destruct (Nat.le_gt_cases n 258) as [Hle|Hgt]; [lia|].
    (* with two extension tokens all bytes are tokens, nothing is cheaper *)
    destruct (candidate_exists counts n p F 2) as (t2 & q2 & C2); [lia|lia|].
    assert (E2 : n_ext = 2); [|lia].
    destruct (Nat.eq_dec n_ext 2) as [->|Hne]; [reflexivity|]. exfalso.
    assert (Hi2 : In 2 l1).
    { assert (Hh : nth_error l 0 = Some 2).
      { unfold l. destruct (Nat.min (n - 1) 10 - 1) eqn:E; [lia|reflexivity]. }
      rewrite El in Hh. destruct l1 as [|x l1]; cbn in Hh; injection Hh as ->; [congruence|left; reflexivity]. }
    specialize (H1 2 t2 q2 Hi2 C2). destruct C2 as (_ & Hl2 & Hc2').
    destruct (huff_cost_all counts _ _ _ _ Hc2') as (_ & E2); [rewrite all_bytes_length; lia|].
    pose proof (huff_cost_ge counts _ _ _ _ Hc3). lia.
  - intros e t q He Hen Ht. assert (Hi : In e l) by (apply Hl; lia).
    rewrite El in Hi. apply in_app_iff in Hi as [Hi|[->|Hi]].
    + specialize (H1 e t q Hi Ht). lia.
    + rewrite (candidate_unique counts n p _ _ _ _ _ Hc Ht). lia.
    + eapply H2; eauto.
Qed.

Lemma huff_bytes_small s n : single_strings (st_token_set s) -> n < 3 -> huff_bytes s n = Panic.
Proof.
  intros Hs Hn. destruct (huff_counts_ok s Hs) as (Ec & _). unfold huff_bytes. rewrite Ec. cbn [bind].
  destruct n as [|[|[|n]]]; [reflexivity|reflexivity|reflexivity|lia].
Qed.
