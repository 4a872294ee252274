(** * The cost of single bytes. *)
From Coq Require Import ZArith.
From Verif Require Import Base BaseLemmas TokenSetModel TokenizerModel TokSpec SortLemmas TokenizerProof1 TokenizerProof2
  TokenizerTheory TokenSetProof TokenSetProof2 OptBytesModel OptBytesProof OptBytesProof2 OptBytesProof3 OptimizeModel OptimizeProof1.

(** ** The table of byte costs *)

(** The single-byte strings of a set with their costs, as the two loops see them. *)
Definition tok_costs (ts : tokenset) : list (byte * nat) :=
  flat_map (fun t => match t with Str [b] => [(b, 1)] | _ => [] end) (tokens ts).
Definition seq_costs (ts : tokenset) : list (byte * nat) :=
  flat_map (fun q => match seq_string q with [b] => [(b, length (seq_tokens q))] | _ => [] end) (sequences ts).
Definition all_costs (ts : tokenset) : list (byte * nat) := tok_costs ts ++ seq_costs ts.

Lemma in_tok_costs ts b c : In (b, c) (tok_costs ts) <-> In (Str [b]) (tokens ts) /\ c = 1.
Proof.
  unfold tok_costs. rewrite in_flat_map. split.
  - intros (t & Ht & H). destruct t as [[|b' [|]]|]; try (destruct H; fail). destruct H as [E|[]]. injection E as -> <-. auto.
  - intros (H & ->). exists (Str [b]). split; [exact H|left; reflexivity].
Qed.

Lemma in_seq_costs ts b c : In (b, c) (seq_costs ts) <->
  exists q, In q (sequences ts) /\ seq_string q = [b] /\ c = length (seq_tokens q).
Proof.
  unfold seq_costs. rewrite in_flat_map. split.
  - intros (q & Hq & H). exists q. destruct (seq_string q) as [|b' [|]]; try (destruct H; fail). destruct H as [E|[]]. injection E as -> <-. auto.
  - intros (q & H & E & ->). exists q. split; [exact H|]. rewrite E. left; reflexivity.
Qed.

Lemma costs_fst ts :
  singles (map fst (tok_costs ts)) = flat_map (fun t => match t with Str [b] => [[b]] | _ => [] end) (tokens ts) /\
  singles (map fst (seq_costs ts)) = flat_map (fun q => match seq_string q with [b] => [[b]] | _ => [] end) (sequences ts).
Proof.
  unfold tok_costs, seq_costs. split; rewrite map_map, map_flat_map; apply flat_map_ext.
  - intros [[|b [|]]|]; reflexivity.
  - intros q. destruct (seq_string q) as [|b [|]]; reflexivity.
Qed.

Lemma costs_nodup ts : usable ts -> NoDup (map fst (all_costs ts)).
Proof.
  intros (Hn & _). apply singles_inj. unfold all_costs. rewrite !map_app.
  destruct (costs_fst ts) as (E1 & E2). rewrite E1, E2. unfold strings in Hn.
  pose proof Hn as Hn0. apply NoDup_app_iff in Hn0 as (H1 & H2 & _).
  eapply NoDup_app_sub; [exact Hn| | | |].
  - eapply NoDup_incl_sub; [|exact H1]. intros [[|b [|]]|]; auto.
  - apply (NoDup_incl_sub _ (fun q => [seq_string q])).
    + intros q. destruct (seq_string q) as [|b [|]]; auto.
    + rewrite flat_map_concat_map, <- (map_map seq_string (fun x => [x])), <- flat_map_concat_map.
      replace (flat_map (fun x => [x]) (map seq_string (sequences ts))) with (map seq_string (sequences ts)); [exact H2|].
      clear. induction (map seq_string (sequences ts)) as [|x l IH]; cbn; [reflexivity|f_equal; exact IH].
  - intros x Hx. apply in_flat_map in Hx as (t & Ht & Hx). apply in_flat_map. exists t. split; [exact Ht|].
    destruct t as [[|b [|]]|]; auto; destruct Hx.
  - intros x Hx. apply in_flat_map in Hx as (q & Hq & Hx). destruct (seq_string q) as [|b [|]] eqn:E; [destruct Hx| |destruct Hx].
    destruct Hx as [<-|[]]. rewrite <- E. apply in_map; exact Hq.
Qed.

Lemma costs_all ts b : usable ts -> exists c, In (b, c) (all_costs ts).
Proof.
  intros (_ & _ & Hb). specialize (Hb b). unfold strings in Hb. unfold all_costs.
  apply in_app_iff in Hb as [Hb|Hb].
  - exists 1. apply in_app_iff. left. apply in_tok_costs. split; [|reflexivity].
    apply in_flat_map in Hb as ([x|] & Ht & H); [|destruct H]. destruct H as [->|[]]. exact Ht.
  - apply in_map_iff in Hb as (q & E & Hq). exists (length (seq_tokens q)). apply in_app_iff. right.
    apply in_seq_costs. eauto.
Qed.

(** Cost of the byte [b] *)
Definition cost (ts : tokenset) (b : byte) : nat :=
  match find (fun p => Byte.eqb (fst p) b) (all_costs ts) with Some p => snd p | None => 0 end.

Lemma cost_eq ts b c : usable ts -> In (b, c) (all_costs ts) -> cost ts b = c.
Proof.
  intros Hu H. unfold cost. destruct (find _ _) as [[b' c']|] eqn:E.
  - apply find_some in E as (H' & E). apply byte_eqb_eq in E. cbn in E. subst b'. cbn.
    pose proof (costs_nodup ts Hu) as Hn. revert Hn H H'. generalize (all_costs ts).
    induction l as [|[b0 c0] l IH]; cbn; intros Hn H1 H2; [destruct H1|].
    inversion Hn as [|? ? Hx Hn']; subst. destruct H1 as [E1|H1], H2 as [E2|H2].
    + congruence.
    + injection E1 as -> ->. exfalso. apply Hx. apply (in_map fst) in H2. exact H2.
    + injection E2 as -> ->. exfalso. apply Hx. apply (in_map fst) in H1. exact H1.
    + apply IH; assumption.
  - exfalso. apply (find_none _ _ E) in H. cbn in H. rewrite (proj2 (byte_eqb_eq b b) eq_refl) in H. discriminate.
Qed.

Lemma cost_piece ts p b : usable ts -> piece_string ts p = Some [b] -> length (piece_tokens ts p) = cost ts b.
Proof.
  intros Hu Hp. symmetry. apply cost_eq; [exact Hu|]. unfold all_costs. apply in_app_iff. destruct p as [i|i]; cbn in *.
  - left. apply in_tok_costs. split; [|reflexivity]. destruct (nth_error (tokens ts) i) as [[x|]|] eqn:E; try discriminate.
    injection Hp as ->. eapply nth_error_In; exact E.
  - right. apply in_seq_costs. destruct (nth_error (sequences ts) i) as [q|] eqn:E; [|discriminate]. injection Hp as Hp.
    exists q. split; [eapply nth_error_In; exact E|]. auto.
Qed.

Lemma piece_of_byte ts b : usable ts -> exists p, piece_string ts p = Some [b] /\ length (piece_tokens ts p) = cost ts b.
Proof.
  intros Hu. assert (G : exists p, piece_string ts p = Some [b]).
  { destruct Hu as (_ & _ & Hb). specialize (Hb b). unfold strings in Hb. apply in_app_iff in Hb as [Hb|Hb].
    - apply in_flat_map in Hb as ([x|] & Ht & H); [|destruct H]. destruct H as [->|[]].
      apply In_nth_error in Ht as (i & Hi). exists (PTok i). cbn. rewrite Hi. reflexivity.
    - apply in_map_iff in Hb as (q & E & Hq). apply In_nth_error in Hq as (i & Hi). exists (PSeq i). cbn. rewrite Hi. cbn. rewrite E. reflexivity. }
  destruct G as (p & Hp). exists p. split; [exact Hp|]. apply cost_piece; assumption.
Qed.

(** the table built by writing costs that are not there yet *)
Definition set_cost (bc : list (option nat)) (b : byte) (n : nat) : outcome (list (option nat)) :=
  old <- idx bc (b2n b) ;;
  _ <- assert_that (match old with None => true | Some _ => false end) ;;
  idx_upd bc (b2n b) (fun _ => Some n).

Definition set_costs (l : list (byte * nat)) (bc : list (option nat)) : outcome (list (option nat)) :=
  mfold (fun bc p => set_cost bc (fst p) (snd p)) l bc.

Lemma byte_costs_eq ts : byte_costs ts = set_costs (all_costs ts) (repeat None 256).
Proof.
  unfold byte_costs, set_costs, all_costs. rewrite mfold_app.
  assert (G1 : forall toks bc, mfold (fun bc t => match t with Str [b] => set_cost bc b 1 | _ => Ret bc end) toks bc
     = mfold (fun bc p => set_cost bc (fst p) (snd p))
         (flat_map (fun t => match t with Str [b] => [(b, 1)] | _ => [] end) toks) bc).
  { induction toks as [|[[|b [|]]|] l IH]; intros bc; cbn [mfold flat_map app bind fst snd]; auto.
    destruct (set_cost bc b 1); cbn [bind]; auto. }
  assert (G2 : forall qs bc, mfold (fun bc q => match seq_string q with [b] => set_cost bc b (length (seq_tokens q)) | _ => Ret bc end) qs bc
     = mfold (fun bc p => set_cost bc (fst p) (snd p))
         (flat_map (fun q => match seq_string q with [b] => [(b, length (seq_tokens q))] | _ => [] end) qs) bc).
  { induction qs as [|q l IH]; intros bc; cbn [mfold flat_map]; auto.
    destruct (seq_string q) as [|b [|]]; cbn [mfold app bind fst snd]; auto.
    destruct (set_cost bc b (length (seq_tokens q))); cbn [bind]; auto. }
  change (bind (mfold (fun bc t => match t with Str [b] => set_cost bc b 1 | _ => Ret bc end) (tokens ts) (repeat None 256))
    (fun c1 => mfold (fun bc q => match seq_string q with [b] => set_cost bc b (length (seq_tokens q)) | _ => Ret bc end) (sequences ts) c1)
    = bind (mfold (fun bc p => set_cost bc (fst p) (snd p)) (tok_costs ts) (repeat None 256))
        (fun bc => mfold (fun bc p => set_cost bc (fst p) (snd p)) (seq_costs ts) bc)).
  rewrite G1. unfold tok_costs. destruct (mfold _ _ _); cbn [bind]; [apply G2|reflexivity|reflexivity].
Qed.

Lemma set_costs_ok : forall l bc, length bc = 256 -> NoDup (map fst l) ->
  (forall b, In b (map fst l) -> nth_error bc (b2n b) = Some None) ->
  set_costs l bc = Ret (fold_left wr (map (fun p => (fst p, Some (snd p))) l) bc).
Proof.
  induction l as [|[b c] l IH]; intros bc Hl Hn Hf; [reflexivity|]. cbn [map fst] in Hn, Hf. inversion Hn as [|? ? Hx Hn']; subst.
  unfold set_costs; cbn [mfold fst snd]. unfold set_cost.
  rewrite (proj2 (idx_ret _ _ _) (Hf b (or_introl eq_refl))). cbn [bind assert_that].
  unfold idx_upd. pose proof (b2n_lt b). rewrite (proj2 (Nat.ltb_lt _ _)) by lia. cbn [bind].
  cbn [map fold_left fst snd]. unfold wr at 2. cbn [fst snd]. apply IH.
  - rewrite upd_length; exact Hl.
  - exact Hn'.
  - intros b' Hb'. rewrite nth_error_upd. destruct (Nat.eqb_spec (b2n b') (b2n b)) as [E|_].
    + exfalso. apply b2n_inj in E. subst. contradiction.
    + apply Hf. right; exact Hb'.
Qed.

Lemma byte_costs_ok ts : usable ts -> exists bc, byte_costs ts = Ret bc /\
  forall b, idx bc (b2n b) = Ret (Some (cost ts b)).
Proof.
  intros Hu. rewrite byte_costs_eq.
  assert (Hf : forall b, nth_error (repeat (@None nat) 256) (b2n b) = Some None).
  { intros b. rewrite (nth_error_nth' _ None) by (rewrite repeat_length; apply b2n_lt). f_equal.
    apply (repeat_spec 256). apply nth_In. rewrite repeat_length. apply b2n_lt. }
  assert (Hl : length (repeat (@None nat) 256) = 256) by apply repeat_length.
  revert Hf Hl. generalize (repeat (@None nat) 256). intros bc Hf Hl.
  eexists. split; [apply set_costs_ok; [exact Hl|apply costs_nodup; exact Hu|intros b _; apply Hf]|].
  intros b. apply idx_ret. destruct (costs_all ts b Hu) as (c & Hc). rewrite (cost_eq ts b c Hu Hc).
  apply wr_in; [exact Hl| |].
  - rewrite map_map. cbn. apply costs_nodup; exact Hu.
  - apply in_map_iff. exists (b, c). auto.
Qed.

(** ** Counting tokens spent on bytes *)
Definition spent (s : stats) (f : byte -> nat) : nat := sum (map (fun p => f (fst p) * snd p) (byte_uses s)).

Lemma count_tok_fold (f : byte -> nat) bc (Hbc : forall b, idx bc (b2n b) = Ret (Some (f b))) :
  forall toks cnts k done t, length cnts = length toks -> length done = k ->
  mfold (fun total p =>
          match snd p with
          | Str [b] => o <- idx bc (b2n b) ;; c <- unwrap o ;;
                       k <- idx (done ++ cnts) (fst p) ;; Ret (total + c * k)
          | _ => Ret total
          end) (enum_from k toks) t
  = Ret (t + sum (map (fun p => f (fst p) * snd p)
      (flat_map (fun p => match fst p with Str [b] => [(b, snd p)] | _ => [] end) (combine toks cnts)))).
Proof.
  induction toks as [|tok toks IH]; intros [|c cnts] k done t Hl Hd; try discriminate.
  - cbn. f_equal. lia.
  - cbn [enum_from mfold combine flat_map fst snd].
    assert (E : idx (done ++ c :: cnts) k = Ret c) by (apply idx_mid; symmetry; exact Hd).
    assert (Hrec : forall t, mfold (fun total p =>
          match snd p with
          | Str [b] => o <- idx bc (b2n b) ;; c0 <- unwrap o ;;
                       k <- idx (done ++ c :: cnts) (fst p) ;; Ret (total + c0 * k)
          | _ => Ret total
          end) (enum_from (S k) toks) t
       = Ret (t + sum (map (fun p => f (fst p) * snd p)
      (flat_map (fun p => match fst p with Str [b] => [(b, snd p)] | _ => [] end) (combine toks cnts))))).
    { intros t0. rewrite <- (IH cnts (S k) (done ++ [c]) t0).
      - rewrite <- app_assoc. reflexivity.
      - cbn in Hl; congruence.
      - rewrite app_length; cbn; lia. }
    destruct tok as [[|b [|]]|]; cbn [bind app map]; try apply Hrec.
    rewrite Hbc, E. cbn [bind unwrap]. rewrite Hrec. f_equal. unfold sum; cbn. lia.
Qed.

Lemma count_seq_fold (f : byte -> nat) bc (Hbc : forall b, idx bc (b2n b) = Ret (Some (f b))) :
  forall qs cnts k done t, length cnts = length qs -> length done = k ->
  mfold (fun total p =>
          match seq_string (snd p) with
          | [b] => o <- idx bc (b2n b) ;; c <- unwrap o ;;
                       k <- idx (done ++ cnts) (fst p) ;; Ret (total + c * k)
          | _ => Ret total
          end) (enum_from k qs) t
  = Ret (t + sum (map (fun p => f (fst p) * snd p)
      (flat_map (fun p => match seq_string (fst p) with [b] => [(b, snd p)] | _ => [] end) (combine qs cnts)))).
Proof.
  induction qs as [|q qs IH]; intros [|c cnts] k done t Hl Hd; try discriminate.
  - cbn. f_equal. lia.
  - cbn [enum_from mfold combine flat_map fst snd].
    assert (E : idx (done ++ c :: cnts) k = Ret c) by (apply idx_mid; symmetry; exact Hd).
    assert (Hrec : forall t, mfold (fun total p =>
          match seq_string (snd p) with
          | [b] => o <- idx bc (b2n b) ;; c0 <- unwrap o ;;
                       k <- idx (done ++ c :: cnts) (fst p) ;; Ret (total + c0 * k)
          | _ => Ret total
          end) (enum_from (S k) qs) t
       = Ret (t + sum (map (fun p => f (fst p) * snd p)
      (flat_map (fun p => match seq_string (fst p) with [b] => [(b, snd p)] | _ => [] end) (combine qs cnts))))).
    { intros t0. rewrite <- (IH cnts (S k) (done ++ [c]) t0).
      - rewrite <- app_assoc. reflexivity.
      - cbn in Hl; congruence.
      - rewrite app_length; cbn; lia. }
    destruct (seq_string q) as [|b [|]]; cbn [bind app map]; try apply Hrec.
    rewrite Hbc, E. cbn [bind unwrap]. rewrite Hrec. f_equal. unfold sum; cbn. lia.
Qed.

Lemma count_tokens_ok ts s : usable ts -> sized s -> count_tokens_in_bytes ts s = Ret (spent s (cost ts)).
Proof.
  intros Hu (Hz1 & Hz2). unfold count_tokens_in_bytes. destruct (byte_costs_ok ts Hu) as (bc & -> & Hbc). cbn [bind].
  unfold enum. pose proof (count_tok_fold (cost ts) bc Hbc _ (token_counts s) 0 [] 0 Hz1 eq_refl) as E1. cbn [app] in E1.
  rewrite E1. cbn [bind].
  match goal with |- context [mfold _ (enum_from 0 (sequences _)) ?t] =>
    pose proof (count_seq_fold (cost ts) bc Hbc _ (seq_counts s) 0 [] t Hz2 eq_refl) as E2 end.
  cbn [app] in E2. rewrite E2. f_equal.
  unfold spent, byte_uses. rewrite map_app, sum_app. reflexivity.
Qed.

(** ** Uses counted in segmentations *)
Definition is_byte (ts : tokenset) (b : byte) (p : piece) : bool :=
  match piece_string ts p with Some [b'] => Byte.eqb b' b | _ => false end.
Definition pieces_of_byte (ts : tokenset) (b : byte) (ps : list piece) : nat := length (filter (is_byte ts b) ps).

(** Tokens spent on pieces that are one byte long. *)
Definition byte_tokens (ts : tokenset) (ps : list piece) : nat :=
  sum (map (fun p => match piece_string ts p with Some [_] => length (piece_tokens ts p) | _ => 0 end) ps).

Lemma sum_all_bytes_one (f : byte -> nat) b : sum (map (fun b' => if Byte.eqb b b' then f b' else 0) all_bytes) = f b.
Proof.
  pose proof NoDup_all_bytes as Hn. pose proof (in_all_bytes b) as Hi. revert Hn Hi. generalize all_bytes.
  induction l as [|x l IH]; intros Hn Hi; [destruct Hi|]. inversion Hn as [|? ? Hx Hn']; subst. unfold sum in *; cbn [map fold_right].
  destruct (Byte.eqb b x) eqn:E.
  - apply byte_eqb_eq in E. subst x. replace (fold_right Init.Nat.add 0 _) with 0; [lia|].
    clear -Hx. induction l as [|y l IH]; [reflexivity|]. cbn [map fold_right].
    destruct (Byte.eqb b y) eqn:E; [apply byte_eqb_eq in E; subst; exfalso; apply Hx; left; reflexivity|].
    rewrite <- IH; [reflexivity|]. intros H. apply Hx. right; exact H.
  - destruct Hi as [->|Hi]; [rewrite (proj2 (byte_eqb_eq b b) eq_refl) in E; discriminate|]. rewrite IH by assumption. reflexivity.
Qed.

Lemma sum_plus {A} (f g : A -> nat) l : sum (map (fun x => f x + g x) l) = sum (map f l) + sum (map g l).
Proof. unfold sum. induction l as [|x l IH]; cbn; [reflexivity|]. rewrite IH. lia. Qed.

Lemma sum_ext {A} (f g : A -> nat) l : (forall x, In x l -> f x = g x) -> sum (map f l) = sum (map g l).
Proof. intros H. f_equal. apply map_ext_in. exact H. Qed.

Lemma sum_zero {A} (f : A -> nat) l : (forall x, f x = 0) -> sum (map f l) = 0.
Proof. intros H. unfold sum. induction l as [|x l IH]; cbn; [reflexivity|]. rewrite H. exact IH. Qed.

(** Sum over the one-byte pieces, grouped by byte. *)
Lemma by_byte ts (f : byte -> nat) ps :
  sum (map (fun p => match piece_string ts p with Some [b] => f b | _ => 0 end) ps)
  = sum (map (fun b => f b * pieces_of_byte ts b ps) all_bytes).
Proof.
  induction ps as [|p ps IH]; cbn [map].
  - symmetry. apply sum_zero. intros b. unfold pieces_of_byte; cbn. lia.
  - unfold sum at 1. cbn [fold_right]. fold (sum (map (fun p => match piece_string ts p with Some [b] => f b | _ => 0 end) ps)).
    rewrite IH.
    transitivity (sum (map (fun b => (if is_byte ts b p then f b else 0) + f b * pieces_of_byte ts b ps) all_bytes)).
    + rewrite sum_plus. f_equal. unfold is_byte. destruct (piece_string ts p) as [[|b [|]]|].
      2: symmetry; apply sum_all_bytes_one.
      all: symmetry; apply sum_zero; reflexivity.
    + apply sum_ext. intros b _. unfold pieces_of_byte. cbn [filter]. destruct (is_byte ts b p); cbn [length]; lia.
Qed.

Lemma byte_tokens_grouped ts ps : usable ts ->
  byte_tokens ts ps = sum (map (fun b => cost ts b * pieces_of_byte ts b ps) all_bytes).
Proof.
  intros Hu. rewrite <- by_byte. unfold byte_tokens. apply sum_ext. intros p _.
  destruct (piece_string ts p) as [[|b [|]]|] eqn:E; try reflexivity. apply cost_piece; assumption.
Qed.

Lemma spent_grouped s f : sized s -> usable (st_token_set s) ->
  spent s f = sum (map (fun b => f b * uses s b) all_bytes).
Proof.
  intros Hz Hu. unfold spent.
  transitivity (sum (map (fun b => f b * uses s b) (map fst (byte_uses s)))).
  - rewrite map_map. apply sum_ext. intros [b c] H. cbn. rewrite (uses_eq s b c Hz Hu H). reflexivity.
  - apply sum_perm, Permutation_map. apply NoDup_Permutation.
    + apply byte_uses_nodup; assumption.
    + apply NoDup_all_bytes.
    + intros b. split; intros _; [apply in_all_bytes|apply byte_uses_all; assumption].
Qed.

(** Sequences contain no one-byte token. *)
Definition heads_free (ts : tokenset) : Prop :=
  forall q j b, In q (sequences ts) -> In j (seq_tokens q) -> nth_error (tokens ts) j <> Some (Str [b]).

Lemma count_occ_pieces ts j b ps text : heads_free ts -> segments ts ps text -> nth_error (tokens ts) j = Some (Str [b]) ->
  count_occ Nat.eq_dec (stream ts ps) j = count_occ piece_eq_dec ps (PTok j).
Proof.
  intros Hh Hs Hj. induction Hs as [|p ps x r Hp _ IH]; [reflexivity|].
  unfold stream; cbn [flat_map]. rewrite count_occ_app. fold (stream ts ps). rewrite IH.
  destruct p as [i|i]; cbn [piece_tokens].
  - cbn [count_occ]. destruct (Nat.eq_dec i j) as [E|Hn], (piece_eq_dec (PTok i) (PTok j)) as [E'|Hn']; try congruence; lia.
  - cbn [count_occ]. destruct (piece_eq_dec (PSeq i) (PTok j)) as [E|_]; [discriminate|].
    destruct (nth_error (sequences ts) i) as [q|] eqn:E; [|reflexivity].
    rewrite (proj1 (count_occ_not_In Nat.eq_dec (seq_tokens q) j)); [reflexivity|].
    intros Hi. apply (Hh q j b (nth_error_In _ _ E) Hi Hj).
Qed.

Lemma filter_is_count ts b p0 ps : usable ts -> piece_string ts p0 = Some [b] ->
  (forall p, piece_string ts p = Some [b] -> p = p0) ->
  pieces_of_byte ts b ps = count_occ piece_eq_dec ps p0.
Proof.
  intros Hu H0 Hun. unfold pieces_of_byte. induction ps as [|p ps IH]; [reflexivity|]. cbn [filter count_occ].
  destruct (piece_eq_dec p p0) as [->|Hn].
  - unfold is_byte at 1. rewrite H0, (proj2 (byte_eqb_eq b b) eq_refl). cbn [length]. lia.
  - destruct (is_byte ts b p) eqn:E; [|exact IH]. exfalso. apply Hn, Hun. unfold is_byte in E.
    destruct (piece_string ts p) as [[|b' [|]]|]; try discriminate. apply byte_eqb_eq in E. subst; reflexivity.
Qed.

Lemma NoDup_flat_single {A B} (f : A -> list B) l i j x a b : NoDup (flat_map f l) ->
  nth_error l i = Some a -> nth_error l j = Some b -> In x (f a) -> In x (f b) -> i = j.
Proof.
  revert i j. induction l as [|y l IH]; intros [|i] [|j] Hn Hi Hj Ha Hb; try discriminate; [reflexivity| | |];
    cbn in Hn; apply NoDup_app_iff in Hn as (_ & H2 & H3).
  - cbn in Hi. injection Hi as ->. exfalso. apply (H3 x Ha). apply in_flat_map. exists b. split; [eapply nth_error_In; exact Hj|exact Hb].
  - cbn in Hj. injection Hj as ->. exfalso. apply (H3 x Hb). apply in_flat_map. exists a. split; [eapply nth_error_In; exact Hi|exact Ha].
  - f_equal. apply IH; assumption.
Qed.

Lemma piece_unique ts p q x : usable ts -> piece_string ts p = Some x -> piece_string ts q = Some x -> p = q.
Proof.
  intros (Hn & _). unfold strings in Hn. pose proof Hn as Hn0. apply NoDup_app_iff in Hn0 as (H1 & H2 & H3).
  assert (T : forall i, piece_string ts (PTok i) = Some x -> nth_error (tokens ts) i = Some (Str x)).
  { intros i H. cbn in H. destruct (nth_error (tokens ts) i) as [[y|]|]; try discriminate. injection H as ->. reflexivity. }
  assert (Q : forall i, piece_string ts (PSeq i) = Some x -> nth_error (map seq_string (sequences ts)) i = Some x).
  { intros i H. cbn in H. rewrite nth_error_map. exact H. }
  intros Hp Hq. destruct p as [i|i], q as [j|j].
  - apply T in Hp, Hq. f_equal. eapply (NoDup_flat_single _ _ i j x _ _ H1 Hp Hq); left; reflexivity.
  - apply T in Hp. apply Q in Hq. exfalso. apply (H3 x); [|eapply nth_error_In; exact Hq].
    apply in_flat_map. exists (Str x). split; [eapply nth_error_In; exact Hp|left; reflexivity].
  - apply T in Hq. apply Q in Hp. exfalso. apply (H3 x); [|eapply nth_error_In; exact Hp].
    apply in_flat_map. exists (Str x). split; [eapply nth_error_In; exact Hq|left; reflexivity].
  - apply Q in Hp, Hq. f_equal. eapply NoDup_nth_error; [exact H2|apply nth_error_Some; congruence|congruence].
Qed.

Lemma segments_concat ts pss samples : Forall2 (segments ts) pss samples -> segments ts (concat pss) (concat samples).
Proof.
  induction 1 as [|ps x pss samples H _ IH]; [constructor|]. cbn. clear -H IH.
  induction H as [|p ps s r Hp _ IH2]; cbn; [exact IH|]. rewrite <- app_assoc. constructor; assumption.
Qed.

Lemma uses_pieces ts samples pss s b : tallied ts samples pss s -> usable ts -> heads_free ts ->
  uses s b = pieces_of_byte ts b (concat pss).
Proof.
  intros H Hu Hh. pose proof (ta_set _ _ _ _ H) as Es.
  assert (Hz : sized s) by (split; rewrite Es; [apply (ta_ntok _ _ _ _ H)|apply (ta_nseq _ _ _ _ H)]).
  assert (Hseg : segments ts (concat pss) (concat samples)).
  { apply segments_concat. eapply Forall2_impl; [|apply (ta_opt _ _ _ _ H)]. intros a x (G & _). exact G. }
  assert (Hub : In (b, uses s b) (byte_uses s)) by (apply uses_in; [exact Hz|rewrite Es; exact Hu]).
  unfold byte_uses in Hub. apply in_app_iff in Hub as [Hi|Hi].
  - apply in_token_uses in Hi as (i & Hi & Hc). rewrite Es in Hi.
    assert (Hp : piece_string ts (PTok i) = Some [b]) by (cbn; rewrite Hi; reflexivity).
    rewrite (filter_is_count ts b (PTok i) _ Hu Hp) by (intros p G; eapply piece_unique; eauto).
    rewrite <- (count_occ_pieces ts i b _ _ Hh Hseg Hi), <- (ta_tok _ _ _ _ H).
    symmetry. apply nth_error_nth. exact Hc.
  - apply in_seq_uses in Hi as (i & q & Hi & Eq & Hc). rewrite Es in Hi.
    assert (Hp : piece_string ts (PSeq i) = Some [b]) by (cbn; rewrite Hi; cbn; rewrite Eq; reflexivity).
    rewrite (filter_is_count ts b (PSeq i) _ Hu Hp) by (intros p G; eapply piece_unique; eauto).
    rewrite <- (ta_seq _ _ _ _ H). symmetry. apply nth_error_nth. exact Hc.
Qed.

(** ** The estimate for the token set that was used *)
Lemma estimate_exact ts samples pss s : tallied ts samples pss s -> usable ts -> heads_free ts ->
  count_tokens_in_bytes ts s = Ret (byte_tokens ts (concat pss)).
Proof.
  intros H Hu Hh. pose proof (ta_set _ _ _ _ H) as Es.
  assert (Hz : sized s) by (split; rewrite Es; [apply (ta_ntok _ _ _ _ H)|apply (ta_nseq _ _ _ _ H)]).
  rewrite (count_tokens_ok ts s Hu Hz), (spent_grouped s _ Hz) by (rewrite Es; exact Hu).
  rewrite byte_tokens_grouped by exact Hu. f_equal. apply sum_ext. intros b _.
  rewrite (uses_pieces ts samples pss s b H Hu Hh). reflexivity.
Qed.

(** Tokens spent on longer pieces. *)
Definition long_pieces (ts : tokenset) (ps : list piece) : nat :=
  sum (map (fun p => match piece_string ts p with Some [_] => 0 | _ => length (piece_tokens ts p) end) ps).

Lemma stream_split ts ps : length (stream ts ps) = byte_tokens ts ps + long_pieces ts ps.
Proof.
  unfold byte_tokens, long_pieces. rewrite <- sum_plus. unfold stream. induction ps as [|p ps IH]; [reflexivity|].
  cbn [flat_map map]. rewrite app_length. unfold sum in *; cbn [fold_right]. rewrite IH.
  destruct (piece_string ts p) as [[|b [|]]|]; lia.
Qed.

(** ** Exchanging the single-byte tokens: the new total is bounded by the old
    total plus the difference of the estimates. *)
Lemma exchange_bound (old new : tokenset) samples pss qss s :
  tallied old samples pss s -> usable old -> heads_free old -> usable new ->
  (forall p x, piece_string old p = Some x -> 1 < length x -> exists q, piece_string new q = Some x /\ length (piece_tokens new q) <= length (piece_tokens old p)) ->
  Forall2 (optimal new) qss samples ->
  length (stream new (concat qss)) + spent s (cost old) <= total_tokens s + spent s (cost new).
Proof.
  intros H Ho Hh Hu Hlong Hq. pose proof (ta_set _ _ _ _ H) as Es.
  assert (Hz : sized s) by (split; rewrite Es; [apply (ta_ntok _ _ _ _ H)|apply (ta_nseq _ _ _ _ H)]).
  set (w := fun p => match piece_string old p with Some [b] => cost new b | _ => length (piece_tokens old p) end).
  destruct (reencode new old samples pss w) as (rss & R1 & R2).
  - intros p x Hp. unfold w. rewrite Hp. destruct x as [|b [|b' x]].
    + exfalso. destruct Ho as (_ & Hne & _). apply Hne. unfold strings. apply in_app_iff. destruct p as [i|i]; cbn in Hp.
      * left. destruct (nth_error (tokens old) i) as [[y|]|] eqn:E; try discriminate. injection Hp as ->.
        apply in_flat_map. exists (Str []). split; [eapply nth_error_In; exact E|left; reflexivity].
      * right. destruct (nth_error (sequences old) i) as [q|] eqn:E; [|discriminate]. injection Hp as Hp. apply in_map_iff.
        exists q. split; [exact Hp|eapply nth_error_In; exact E].
    + destruct (piece_of_byte new b Hu) as (q & Hq1 & Hq2). exists q. split; [exact Hq1|lia].
    + apply (Hlong p _ Hp). cbn; lia.
  - eapply Forall2_impl; [|apply (ta_opt _ _ _ _ H)]. intros a x (G & _). exact G.
  - pose proof (optimal_total_le new samples qss rss Hq R1) as Hle.
    rewrite (spent_grouped s _ Hz), (spent_grouped s _ Hz) by (rewrite Es; exact Ho).
    rewrite (ta_total _ _ _ _ H), (stream_split old), (byte_tokens_grouped _ _ Ho).
    assert (E : forall f, sum (map (fun b => f b * uses s b) all_bytes) = sum (map (fun b => f b * pieces_of_byte old b (concat pss)) all_bytes)).
    { intros f. apply sum_ext. intros b _. rewrite (uses_pieces old samples pss s b H Ho Hh). reflexivity. }
    rewrite !E.
    assert (Ew : sum (map w (concat pss)) = sum (map (fun b => cost new b * pieces_of_byte old b (concat pss)) all_bytes) + long_pieces old (concat pss)).
    { rewrite <- by_byte. unfold long_pieces. rewrite <- sum_plus. apply sum_ext. intros p _. unfold w.
      destruct (piece_string old p) as [[|b [|]]|]; lia. }
    rewrite Ew in R2. lia.
Qed.
