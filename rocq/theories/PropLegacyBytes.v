(** * C78: the exchange of single-byte tokens in the older optimizer. *)
From Verif Require Import Base BaseLemmas LegacyModel LegacySpec LegacyTok PropLegacyTok LegacyOptModel LegacyOptProof LegacyBytesProof PropLegacyCache.
From Coq Require Import ZArith Sorted Permutation.

Definition pstr (ts : lset) (x : tidx) : bstr := match l_piece_string ts x with Some y => y | None => [] end.

Lemma uses_strings ts f samples i : uses ts f samples (n2b i) = length (filter (is_byte i) (map (pstr ts) (flat_map f samples))).
Proof.
  unfold uses. induction (flat_map f samples) as [|x xs IH]; [reflexivity|]. cbn [map filter]. unfold pstr at 1.
  destruct (l_piece_string ts x) as [y|]; cbn [is_byte].
  - fold (is_byte i y). destruct (is_byte i y); cbn [length]; rewrite IH; reflexivity.
  - change (is_byte i []) with false. exact IH.
Qed.

Section Exchange.
Variables (ts : lset) (f : bstr -> list tidx) (samples : list bstr) (ps : bool) (s : lstats).
Hypothesis Hb : l_built ts.
Hypothesis Hn : ~ In [] (l_strings ts).
Hypothesis Hf : forall w, l_optimal ts (f w) w.
Hypothesis T : l_total ts ps f samples s.

Let Hok : l_ok ts := l_built_ok ts Hb.
Let pieces := flat_map f samples.
Let strs := l_strings ts.
Definition tk (i : nat) : bool := existsb (is_byte i) (l_strings ts).

Lemma piece_valid x : In x pieces -> exists y, l_piece_string ts x = Some y.
Proof.
  intros Hx. apply in_flat_map in Hx as (w & _ & Hx). pose proof (proj1 (Hf w)) as Hs. clear - Hs Hx.
  induction Hs as [|z xs u r Hz _ IH]; [destruct Hx|]. destruct Hx as [<-|Hx]; [eauto|auto].
Qed.

Lemma piece_literal b : In (LLit b) pieces -> ~ In [b] strs.
Proof. intros Hx. apply in_flat_map in Hx as (w & _ & Hx). eapply optimal_literals; [exact Hn|apply (Hf w)|exact Hx]. Qed.

Lemma tk_spec i : i < 256 -> tk i = true <-> In [n2b i] strs.
Proof.
  intros Hi. unfold tk. rewrite existsb_exists. split.
  - intros (y & Hy & E). apply bstr_eqb_eq in E. rewrite E. exact Hy.
  - intros Hy. exists [n2b i]. split; [exact Hy|]. apply bstr_eqb_refl.
Qed.

Lemma filter_combine_count i j : nth_error strs j = Some [n2b i] ->
  sum (map snd (filter (fun p => is_byte i (lt_string (fst p))) (combine (l_tokens ts) (ls_tokens s)))) = nth j (ls_tokens s) 0.
Proof.
  intros Hj. pose proof (indexes_NoDup _ _ Hok) as Hnd. pose proof (lt_tokens_length _ _ _ _ _ T) as Hl.
  unfold strs, l_strings in *. clear - Hj Hnd Hl. revert Hl j Hj. generalize (ls_tokens s).
  induction (l_tokens ts) as [|t l IH]; intros [|n k] Hlen j Hj; cbn in Hlen; try discriminate.
  - destruct j; discriminate.
  - cbn [map] in Hnd. apply NoDup_cons_iff in Hnd as (Ht & Hnd). cbn [combine filter fst].
    destruct j as [|j]; cbn [map nth_error] in Hj.
    + injection Hj as Hj. assert (E : is_byte i (lt_string t) = true) by (unfold is_byte; rewrite Hj; apply bstr_eqb_refl). rewrite E.
      cbn [map snd]. rewrite sum_cons. cbn [nth].
      assert (Z : filter (fun p => is_byte i (lt_string (fst p))) (combine l k) = []).
      { rewrite Hj in Ht. clear - Ht. revert k. induction l as [|u l IH]; intros [|m k]; try reflexivity. cbn [combine filter fst].
        destruct (is_byte i (lt_string u)) eqn:E.
        - exfalso. apply Ht. cbn. left. apply bstr_eqb_eq in E. auto.
        - apply IH. intros H; apply Ht; right; exact H. }
      rewrite Z. cbn. lia.
    + destruct (is_byte i (lt_string t)) eqn:E.
      * exfalso. apply Ht. apply bstr_eqb_eq in E. rewrite <- E. eapply nth_error_In; exact Hj.
      * cbn [nth]. apply IH; auto.
Qed.

Lemma filter_combine_none i : ~ In [n2b i] strs ->
  filter (fun p => is_byte i (lt_string (fst p))) (combine (l_tokens ts) (ls_tokens s)) = [].
Proof.
  unfold strs, l_strings. generalize (ls_tokens s). clear. induction (l_tokens ts) as [|u l IH]; intros [|m k] Ht; try reflexivity.
  cbn [combine filter fst]. destruct (is_byte i (lt_string u)) eqn:E.
  - exfalso. apply Ht. cbn. left. apply bstr_eqb_eq in E. auto.
  - apply IH. intros H; apply Ht; right; exact H.
Qed.

Lemma existsb_combine i : existsb (fun p => is_byte i (lt_string (fst p))) (combine (l_tokens ts) (ls_tokens s)) = tk i.
Proof.
  pose proof (lt_tokens_length _ _ _ _ _ T) as Hl. unfold tk, l_strings. clear - Hl. revert Hl. generalize (ls_tokens s).
  induction (l_tokens ts) as [|u l IH]; intros [|m k] Hl; try discriminate; [reflexivity|]. cbn. rewrite IH; auto.
Qed.

Lemma count_pieces_token b j : nth_error strs j = Some [b] ->
  length (filter (fun x => match l_piece_string ts x with Some y => bstr_eqb [b] y | None => false end) pieces) =
  count_occ tidx_eq_dec pieces (LTok j).
Proof.
  intros Hj. pose proof piece_literal as Hl. induction pieces as [|x xs IH]; [reflexivity|].
  assert (IH' := IH (fun c H => Hl c (or_intror H))). clear IH. cbn [filter count_occ].
  destruct (tidx_eq_dec x (LTok j)) as [->|Hne].
  - cbn [l_piece_string]. fold strs. rewrite Hj, bstr_eqb_refl. cbn [length]. rewrite IH'. reflexivity.
  - assert (E : match l_piece_string ts x with Some y => bstr_eqb [b] y | None => false end = false).
    { destruct x as [k|c|]; cbn [l_piece_string]; [| |reflexivity].
      - fold strs. destruct (nth_error strs k) as [y|] eqn:Ek; [|reflexivity]. apply bstr_eqb_neq. intros <-.
        apply Hne. f_equal. apply Hok in Hj, Ek. congruence.
      - apply bstr_eqb_neq. intros E. injection E as <-. apply (Hl b (or_introl eq_refl)). eapply nth_error_In; exact Hj. }
    rewrite E. exact IH'.
Qed.

Lemma count_pieces_literal b : ~ In [b] strs ->
  length (filter (fun x => match l_piece_string ts x with Some y => bstr_eqb [b] y | None => false end) pieces) =
  count_occ tidx_eq_dec pieces (LLit b).
Proof.
  intros Hnb. induction pieces as [|x xs IH]; [reflexivity|]. cbn [filter count_occ].
  destruct (tidx_eq_dec x (LLit b)) as [->|Hne].
  - cbn [l_piece_string]. rewrite bstr_eqb_refl. cbn [length]. rewrite IH. reflexivity.
  - assert (E : match l_piece_string ts x with Some y => bstr_eqb [b] y | None => false end = false).
    { destruct x as [k|c|]; cbn [l_piece_string]; [| |reflexivity].
      - fold strs. destruct (nth_error strs k) as [y|] eqn:Ek; [|reflexivity]. apply bstr_eqb_neq. intros <-.
        apply Hnb. eapply nth_error_In; exact Ek.
      - apply bstr_eqb_neq. intros E. injection E as <-. congruence. }
    rewrite E. exact IH.
Qed.

(** The table of counts computed by the program. *)
Lemma byte_counts : exists c tkv,
  (zs <- zip_counts (l_tokens ts) (ls_tokens s) ;; mfold count_byte zs (repeat 0 256, 0, repeat false 256)) =
    Ret (c, length (filter single strs), tkv) /\
  (forall i, i < 256 -> nth i tkv false = tk i) /\
  exists c', mfold (count_literal (ls_literals s)) (seq 0 256) c = Ret c' /\ length c' = 256 /\
    forall i, i < 256 -> nth i c' 0 = uses ts f samples (n2b i).
Proof.
  rewrite zip_ok by apply (lt_tokens_length _ _ _ _ _ T). cbn [bind].
  destruct (count_bytes_fold (combine (l_tokens ts) (ls_tokens s)) (repeat 0 256) 0 (repeat false 256)) as (c & tkv & E & L1 & L2 & H).
  { apply repeat_length. } { apply repeat_length. }
  exists c, tkv. split.
  { rewrite E. cbn [Nat.add]. do 2 f_equal. f_equal.
    pose proof (lt_tokens_length _ _ _ _ _ T) as Hl. unfold strs, l_strings. clear - Hl. revert Hl. generalize (ls_tokens s).
    induction (l_tokens ts) as [|u l IH]; intros [|m k] Hl; try discriminate; [reflexivity|]. cbn [combine filter fst map].
    destruct (single (lt_string u)); cbn [length]; rewrite IH; auto. }
  assert (Z1 : forall i, nth i (repeat 0 256) 0 = 0) by (intros i; apply nth_repeat).
  assert (Z2 : forall i, nth i (repeat false 256) false = false) by (intros i; apply nth_repeat).
  split. { intros i Hi. rewrite (proj2 (H i Hi)), Z2. cbn [orb]. apply existsb_combine. }
  assert (Hlit : forall i, i < 256 -> nth i (ls_literals s) 0 = count_occ tidx_eq_dec pieces (LLit (n2b i))).
  { intros i Hi. unfold pieces. rewrite <- (lt_literals _ _ _ _ _ T (n2b i)), b2n_n2b_small by exact Hi. reflexivity. }
  assert (Hc : forall i, i < 256 -> nth i c 0 = if tk i then uses ts f samples (n2b i) else 0).
  { intros i Hi. rewrite (proj1 (H i Hi)), Z1. cbn [Nat.add]. destruct (tk i) eqn:Ei.
    - apply tk_spec in Ei; [|exact Hi]. apply In_nth_error in Ei as (j & Hj). rewrite (filter_combine_count i j Hj).
      rewrite (lt_tokens _ _ _ _ _ T). unfold uses. fold pieces. rewrite (count_pieces_token _ _ Hj). reflexivity.
    - rewrite filter_combine_none; [reflexivity|]. intros Hin. apply tk_spec in Hin; [congruence|exact Hi]. }
  destruct (count_literals_fold (ls_literals s) (lt_literals_length _ _ _ _ _ T) (seq 0 256) c L1 (seq_NoDup _ _)) as (c' & E' & L & H').
  { intros i Hi. apply in_seq in Hi. lia. }
  { intros i Hi Hp. apply in_seq in Hi. rewrite Hc by lia. destruct (tk i) eqn:Ei; [|reflexivity]. exfalso.
    apply tk_spec in Ei; [|lia]. rewrite Hlit in Hp by lia. apply count_occ_In in Hp. apply (piece_literal _ Hp Ei). }
  exists c'. split; [exact E'|]. split; [exact L|]. intros i Hi. rewrite H'.
  assert (Ex : existsb (Nat.eqb i) (seq 0 256) = true).
  { apply existsb_exists. exists i. split; [apply in_seq; lia|apply Nat.eqb_refl]. }
  rewrite Ex. cbn [andb]. rewrite Hc by exact Hi. destruct (tk i) eqn:Ei.
  - apply tk_spec in Ei; [|exact Hi]. destruct (Nat.ltb_spec 0 (nth i (ls_literals s) 0)) as [Hp|_]; [|reflexivity].
    exfalso. rewrite Hlit in Hp by exact Hi. apply count_occ_In in Hp. apply (piece_literal _ Hp Ei).
  - assert (Hnin : ~ In [n2b i] strs) by (intros Hin; apply tk_spec in Hin; [congruence|exact Hi]).
    unfold uses. fold pieces. rewrite (count_pieces_literal _ Hnin), <- Hlit by exact Hi.
    destruct (Nat.ltb_spec 0 (nth i (ls_literals s) 0)) as [_|Hz]; [reflexivity|]. lia.
Qed.

Let S := map (pstr ts) pieces.
Definition h_cost (ss : list bstr) (y : bstr) : nat := if existsb (bstr_eqb y) ss then 1 else literal_cost (l_enc ts).

Lemma sum_flat_map {A B} (g : A -> list B) (h : B -> nat) l : sum (map (fun w => sum (map h (g w))) l) = sum (map h (flat_map g l)).
Proof. induction l as [|a l IH]; cbn [map flat_map]; [reflexivity|]. rewrite sum_cons, map_app, sum_app, IH. reflexivity. Qed.

Lemma existsb_in (y : bstr) ss : existsb (bstr_eqb y) ss = true <-> In y ss.
Proof.
  rewrite existsb_exists. split.
  - intros (z & Hz & E). apply bstr_eqb_eq in E as ->. exact Hz.
  - intros H. exists y. split; [exact H|apply bstr_eqb_refl].
Qed.

Lemma old_cost c : l_costs ts samples c -> c = sum (map (h_cost strs) S).
Proof.
  intros Hc. assert (Hc' : l_costs ts samples (sum (map (fun w => l_seg_cost (l_enc ts) (f w)) samples))) by (exists f; auto).
  rewrite (l_costs_unique _ _ _ _ Hc Hc'). unfold l_seg_cost. rewrite sum_flat_map. fold pieces. unfold S. rewrite map_map. f_equal.
  apply map_ext_in. intros x Hx. destruct (piece_valid x Hx) as (y & Hy). unfold pstr. rewrite Hy. unfold h_cost.
  destruct x as [j|b|]; cbn in Hy |- *; [| |discriminate].
  - assert (E : existsb (bstr_eqb y) strs = true) by (apply existsb_in; eapply nth_error_In; exact Hy). rewrite E. reflexivity.
  - injection Hy as <-. destruct (existsb (bstr_eqb [b]) strs) eqn:E; [|reflexivity]. apply existsb_in in E.
    exfalso. apply (piece_literal _ Hx E).
Qed.

Section New.
Variable ts' : lset.
Hypothesis Hok' : l_ok ts'.
Hypothesis He : l_enc ts' = l_enc ts.
Hypothesis Hm : forall y, In y strs -> single y = false -> In y (l_strings ts').

Definition conv (x : tidx) : tidx :=
  match l_piece_string ts x with
  | Some y => match sget (l_by_str ts') y with Some j => LTok j | None => match y with [b] => LLit b | _ => LNone end end
  | None => LNone
  end.

Lemma conv_string x y : l_piece_string ts x = Some y -> l_piece_string ts' (conv x) = Some y /\
  l_piece_cost (l_enc ts) (conv x) = h_cost (l_strings ts') y.
Proof.
  intros Hy. unfold conv. rewrite Hy. unfold h_cost. destruct (sget (l_by_str ts') y) as [j|] eqn:Ej.
  - apply Hok' in Ej. cbn. split; [exact Ej|]. apply nth_error_In in Ej. apply existsb_in in Ej. rewrite Ej. reflexivity.
  - apply (indexes_None _ _ _ Hok') in Ej.
    assert (E : existsb (bstr_eqb y) (l_strings ts') = false).
    { destruct (existsb _ _) eqn:E; [|reflexivity]. apply existsb_in in E. contradiction. }
    rewrite E. destruct (single_cases y) as [(b & ->)|(Hs & _)]; [auto|]. exfalso.
    destruct x as [j|b|]; cbn in Hy; [|injection Hy as <-; discriminate|discriminate].
    apply Ej, Hm; [eapply nth_error_In; exact Hy|exact Hs].
Qed.

Lemma conv_segments xs w : l_segments ts xs w -> l_segments ts' (map conv xs) w.
Proof. induction 1 as [|x xs y r Hx _ IH]; cbn; constructor; auto. apply conv_string; exact Hx. Qed.

Lemma new_cost c : l_costs ts' samples c -> c <= sum (map (h_cost (l_strings ts')) S).
Proof.
  intros (g & Hg & ->).
  assert (G : forall l, sum (map (fun w => l_seg_cost (l_enc ts') (g w)) l) <= sum (map (fun w => l_seg_cost (l_enc ts) (map conv (f w))) l)).
  { induction l as [|w l IH]; [reflexivity|]. cbn [map]. rewrite !sum_cons.
    pose proof (proj2 (Hg w) (map conv (f w)) (conv_segments _ _ (proj1 (Hf w)))) as H. rewrite He in *.
    change (l_seg_cost (l_enc ts) (g w) <= l_seg_cost (l_enc ts) (map conv (f w))) in H. lia. }
  etransitivity; [apply G|]. unfold l_seg_cost. rewrite (map_ext _ (fun w => sum (map (fun x => l_piece_cost (l_enc ts) (conv x)) (f w)))).
  2: { intros w. rewrite map_map. reflexivity. }
  rewrite sum_flat_map. fold pieces. unfold S. rewrite map_map. apply Nat.eq_le_incl. f_equal.
  apply map_ext_in. intros x Hx. destruct (piece_valid x Hx) as (y & Hy). rewrite (proj2 (conv_string x y Hy)).
  unfold pstr. rewrite Hy. reflexivity.
Qed.

(** Exchanging [n] bytes for the [n] most used ones is no loss. *)
Lemma exchange_cost F K c c' : Permutation (F ++ K) (seq 0 256) -> length F = length (filter single strs) ->
  (forall a r, In a F -> In r K -> uses ts f samples (n2b r) <= uses ts f samples (n2b a)) ->
  (forall i, i < 256 -> In [n2b i] (l_strings ts') <-> In i F) ->
  l_costs ts samples c -> l_costs ts' samples c' -> c' <= c.
Proof.
  intros Hp Hl Hu Hts' Hc Hc'. rewrite (old_cost _ Hc). etransitivity; [apply new_cost; exact Hc'|].
  assert (Hin : forall i, In i (F ++ K) <-> i < 256).
  { intros i. split; intros Hi.
    - apply (Permutation_in _ Hp), in_seq in Hi. lia.
    - apply (Permutation_in _ (Permutation_sym Hp)), in_seq. lia. }
  assert (Hnd : NoDup (F ++ K)) by (eapply Permutation_NoDup; [apply Permutation_sym; exact Hp|apply seq_NoDup]).
  rewrite (byte_sum (h_cost strs) S (F ++ K) Hnd Hin), (byte_sum (h_cost (l_strings ts')) S (F ++ K) Hnd Hin).
  assert (Em : map (h_cost (l_strings ts')) (filter (fun y => negb (single y)) S) = map (h_cost strs) (filter (fun y => negb (single y)) S)).
  { apply map_ext_in. intros y Hy. apply filter_In in Hy as (Hy & Hs). apply negb_true_iff in Hs.
    unfold S in Hy. apply in_map_iff in Hy as (x & <- & Hx). destruct (piece_valid x Hx) as (y & Hy).
    assert (Hin' : In (pstr ts x) strs).
    { unfold pstr in *. rewrite Hy in *. destruct x as [j|b|]; cbn in Hy; [eapply nth_error_In; exact Hy|injection Hy as <-; discriminate|discriminate]. }
    unfold h_cost. rewrite (proj2 (existsb_in _ _) Hin'), (proj2 (existsb_in _ _) (Hm _ Hin' Hs)). reflexivity. }
  rewrite Em. apply Nat.add_le_mono_l.
  assert (E0 : forall ss i, In i (F ++ K) -> length (filter (is_byte i) S) * h_cost ss [n2b i] =
                 uses ts f samples (n2b i) * (if existsb (is_byte i) ss then 1 else literal_cost (l_enc ts))).
  { intros ss i _. rewrite uses_strings. reflexivity. }
  rewrite (map_ext_in _ _ _ (E0 (l_strings ts'))), (map_ext_in _ _ _ (E0 strs)).
  apply (top_sum (fun i => uses ts f samples (n2b i)) tk).
  - pose proof (single_count strs (F ++ K) (indexes_NoDup _ _ Hok) Hnd Hin) as Hcnt. rewrite filter_app, app_length, <- Hl in Hcnt.
    pose proof (filter_length_split tk F). change (fun i => existsb (is_byte i) strs) with tk in Hcnt. lia.
  - exact Hu.
  - intros i Hi. apply existsb_in. apply Hts'; [apply Hin, in_or_app; left; exact Hi|exact Hi].
  - intros i Hi. destruct (existsb (is_byte i) (l_strings ts')) eqn:E; [|reflexivity]. exfalso.
    apply existsb_in in E. apply Hts' in E; [|apply Hin, in_or_app; right; exact Hi].
    assert (Hd : forall l1 l2 : list nat, NoDup (l1 ++ l2) -> In i l1 -> In i l2 -> False).
    { clear. induction l1 as [|a l1 IH]; intros l2 Hnd H1 H2; [destruct H1|]. cbn in Hnd. apply NoDup_cons_iff in Hnd as (Ha & Hnd).
      destruct H1 as [->|H1]; [apply Ha, in_or_app; right; exact H2|eapply IH; eassumption]. }
    apply (Hd F K); assumption.
  - pose proof (literal_cost_pos (l_enc ts)). lia.
Qed.
End New.
End Exchange.

Lemma n2b_inj_small i j : i < 256 -> j < 256 -> n2b i = n2b j -> i = j.
Proof. intros Hi Hj E. rewrite <- (b2n_n2b_small i Hi), E, b2n_n2b_small by exact Hj. reflexivity. Qed.

Lemma map_bytes_nodup l : NoDup l -> (forall i, In i l -> i < 256) -> NoDup (map (fun i => [n2b i]) l).
Proof.
  induction l as [|i l IH]; intros Hnd Hl; cbn; constructor.
  - apply NoDup_cons_iff in Hnd as (Hi & _). intros H. apply in_map_iff in H as (j & E & Hj). injection E as E.
    apply n2b_inj_small in E; [congruence|apply Hl; right; exact Hj|apply Hl; left; reflexivity].
  - apply NoDup_cons_iff in Hnd as (_ & Hnd). apply IH; [exact Hnd|]. intros j Hj; apply Hl; right; exact Hj.
Qed.

Lemma filter_le {A} (p : A -> bool) l : length (filter p l) <= length l.
Proof. induction l as [|x l IH]; cbn; [lia|]. destruct (p x); cbn; lia. Qed.

Lemma nodup_parts {A} (l1 l2 : list A) : NoDup (l1 ++ l2) -> NoDup l1 /\ NoDup l2.
Proof.
  induction l1 as [|a l1 IH]; cbn; intros H; [split; [constructor|exact H]|]. apply NoDup_cons_iff in H as (Ha & H).
  destruct (IH H) as (H1 & H2). split; [|exact H2]. constructor; [|exact H1]. intros Hx; apply Ha, in_or_app; left; exact Hx.
Qed.

(** The exchange itself *)
Lemma exchange_ok ts R A : l_built ts -> l_enc ts <> LHex -> NoDup R -> NoDup A ->
  (forall i, In i R -> i < 256 /\ tk ts i = true) -> (forall i, In i A -> i < 256 /\ tk ts i = false) -> length A = length R ->
  exists ts1 ts2, mfold (fun ts i => l_remove_token ts [n2b i]) R ts = Ret ts1 /\
    mfold (fun ts i => l_add_token ts [n2b i]) A ts1 = Ret ts2 /\ l_built ts2 /\ l_enc ts2 = l_enc ts /\
    length (l_tokens ts2) = length (l_tokens ts) /\
    filter (fun t => negb (single (lt_string t))) (l_tokens ts2) = filter (fun t => negb (single (lt_string t))) (l_tokens ts) /\
    forall i, i < 256 -> In [n2b i] (l_strings ts2) <-> (tk ts i = true /\ ~ In i R) \/ In i A.
Proof.
  intros Hb Hh HR HA HR' HA' Hlen.
  destruct A as [|a0 A0] eqn:EA.
  { destruct R; [|discriminate]. exists ts, ts. cbn [mfold]. do 6 (split; [solve [auto]|]). intros i Hi. split.
    - intros Hx. left. split; [|intros []]. apply tk_spec; auto.
    - intros [[Hx _]|[]]. apply tk_spec in Hx; auto. }
  rewrite <- EA in *. assert (Hall : l_enc ts <> LAll).
  { intros E. destruct (HA' a0) as (H1 & H2); [rewrite EA; left; reflexivity|].
    assert (Hm : In (mkLtok [n2b a0] true) (l_tokens ts)).
    { apply built_mandatory; [exact Hb|]. rewrite E. cbn [mandatory_strings]. apply in_map_iff. exists (n2b a0). split; [reflexivity|apply in_all_bytes]. }
    assert (tk ts a0 = true); [|congruence]. apply tk_spec; [exact H1|]. apply in_map_iff. eexists. split; [|exact Hm]. reflexivity. }
  clear a0 A0 EA.
  destruct (remove_fold (fun i => [n2b i]) R ts Hb) as (ts1 & E1 & Hb1 & Ee1 & T1).
  { apply map_bytes_nodup; [exact HR|]. intros i Hi; apply HR'; exact Hi. }
  { intros i Hi. destruct (HR' i Hi) as (Hi' & Ht). apply tk_spec in Ht; [|exact Hi'].
    apply in_map_iff in Ht as (t & Hs & Ht). exists t. split; [exact Ht|]. split; [exact Hs|]. eapply built_free; eassumption. }
  destruct (add_fold (fun i => [n2b i]) A ts1 Hb1) as (ts2 & E2 & Hb2 & Ee2 & T2).
  { apply map_bytes_nodup; [exact HA|]. intros i Hi; apply HA'; exact Hi. }
  { intros i Hi Hin. destruct (HA' i Hi) as (Hi' & Ht). assert (tk ts i = true); [|congruence]. apply tk_spec; [exact Hi'|].
    apply in_map_iff in Hin as (t & Hs & Hin). rewrite T1 in Hin. apply filter_In in Hin as [Hin _]. apply in_map_iff. eauto. }
  exists ts1, ts2. split; [exact E1|]. split; [exact E2|]. split; [exact Hb2|]. split; [congruence|]. split; [|split].
  - rewrite T2, T1, app_length, map_length, Hlen.
    pose proof (filter_length_split (fun t => existsb (fun i => bstr_eqb (lt_string t) [n2b i]) R) (l_tokens ts)) as Hsp.
    assert (E : length (filter (fun t => existsb (fun i => bstr_eqb (lt_string t) [n2b i]) R) (l_tokens ts)) = length R).
    { rewrite <- (map_length lt_string (filter _ _)), <- (map_length (fun i => [n2b i]) R). apply Permutation_length, NoDup_Permutation.
      - pose proof (indexes_NoDup _ _ (l_built_ok _ Hb)) as Hnd. unfold l_strings in Hnd. clear - Hnd.
        induction (l_tokens ts) as [|t l IH]; [constructor|]. cbn [map] in Hnd. apply NoDup_cons_iff in Hnd as (Ht & Hnd). cbn [filter].
        destruct (existsb _ R); [|auto]. cbn [map]. constructor; [|auto]. intros H. apply Ht.
        apply in_map_iff in H as (u & Hu & H). apply filter_In in H as [H _]. apply in_map_iff. eauto.
      - apply map_bytes_nodup; [exact HR|]. intros i Hi; apply HR'; exact Hi.
      - intros y. rewrite !in_map_iff. split.
        + intros (t & <- & Ht). apply filter_In in Ht as (_ & Ht). apply existsb_exists in Ht as (i & Hi & E). apply bstr_eqb_eq in E.
          exists i. auto.
        + intros (i & <- & Hi). destruct (HR' i Hi) as (Hi' & Ht). apply tk_spec in Ht; [|exact Hi'].
          apply in_map_iff in Ht as (t & Hs & Ht). exists t. split; [exact Hs|]. apply filter_In. split; [exact Ht|].
          apply existsb_exists. exists i. split; [exact Hi|]. rewrite Hs. apply bstr_eqb_refl. }
    lia.
  - rewrite T2, T1, filter_app.
    assert (E : filter (fun t => negb (single (lt_string t))) (map (fun i => mkLtok [n2b i] false) A) = []).
    { clear. induction A as [|a A IH]; [reflexivity|]. cbn [map filter lt_string single length Nat.eqb negb]. exact IH. }
    rewrite E, app_nil_r. clear. induction (l_tokens ts) as [|t l IH]; [reflexivity|]. cbn [filter].
    destruct (existsb (fun i => bstr_eqb (lt_string t) [n2b i]) R) eqn:Ex; cbn [negb].
    + apply existsb_exists in Ex as (i & _ & Ei). apply bstr_eqb_eq in Ei. rewrite Ei. cbn [single length Nat.eqb negb]. exact IH.
    + cbn [filter]. destruct (negb (single (lt_string t))); [f_equal|]; exact IH.
  - intros i Hi. unfold l_strings. rewrite T2, T1, map_app, in_app_iff, !in_map_iff. split.
    + intros [(t & Hs & Ht)|(t & Hs & Ht)].
      * apply filter_In in Ht as (Ht & Hx). left. split.
        -- apply tk_spec; [exact Hi|]. apply in_map_iff. eauto.
        -- intros HiR. apply negb_true_iff in Hx. assert (Hx' : existsb (fun j => bstr_eqb (lt_string t) [n2b j]) R = true); [|congruence].
           apply existsb_exists. exists i. split; [exact HiR|]. rewrite Hs. apply bstr_eqb_refl.
      * right. apply in_map_iff in Ht as (j & <- & Hj). cbn in Hs. injection Hs as Hs.
        apply n2b_inj_small in Hs; [congruence|apply HA'; exact Hj|exact Hi].
    + intros [(Ht & HiR)|HiA].
      * left. apply tk_spec in Ht; [|exact Hi]. apply in_map_iff in Ht as (t & Hs & Ht). exists t. split; [exact Hs|].
        apply filter_In. split; [exact Ht|]. apply negb_true_iff. destruct (existsb _ R) eqn:Ex; [|reflexivity]. exfalso.
        apply existsb_exists in Ex as (j & Hj & Ej). apply bstr_eqb_eq in Ej. rewrite Hs in Ej. injection Ej as Ej.
        apply n2b_inj_small in Ej; [congruence|exact Hi|apply HR'; exact Hj].
      * right. exists (mkLtok [n2b i] false). split; [reflexivity|]. apply in_map_iff. eauto.
Qed.

(** What the function computes, with the bytes in the order of their use cut after the number of
    single-byte tokens. *)
Lemma byte_tokens_shape o k ts ps f samples s : oracle_ok o -> l_built ts -> ~ In [] (l_strings ts) ->
  (forall w, l_optimal ts (f w) w) -> l_total ts ps f samples s ->
  exists F K, Permutation (F ++ K) (seq 0 256) /\ length F = length (filter single (l_strings ts)) /\
    length (filter (fun i => negb (tk ts i)) F) = length (filter (tk ts) K) /\
    (forall a r, In a F -> In r K -> uses ts f samples (n2b r) <= uses ts f samples (n2b a)) /\
    F ++ K = o_sort o k (map (fun i => (- Z.of_nat (uses ts f samples (n2b i)))%Z) (seq 0 256)) /\
    optimize_byte_tokens o k ts s =
      match filter (fun i => negb (tk ts i)) F with
      | [] => _ <- assert_that (length (filter (tk ts) K) =? 0) ;; Ret (ts, false)
      | _ :: _ =>
          _ <- assert_that (negb (length (filter (tk ts) K) =? 0)) ;;
          ts1 <- mfold (fun ts i => l_remove_token ts [n2b i]) (filter (tk ts) K) ts ;;
          ts2 <- mfold (fun ts i => l_add_token ts [n2b i]) (filter (fun i => negb (tk ts i)) F) ts1 ;;
          Ret (ts2, true)
      end.
Proof.
  intros Ho Hb Hn Hf T. pose proof (l_built_ok _ Hb) as Hok.
  destruct (byte_counts ts f samples ps s Hb Hn Hf T) as (c & tkv & Ec & Htk & c' & Ec' & Hl' & Hc').
  unfold optimize_byte_tokens. destruct (zip_counts (l_tokens ts) (ls_tokens s)) as [zs| |]; [|discriminate|discriminate].
  cbn [bind] in Ec |- *. rewrite Ec. cbn [bind]. rewrite Ec'. cbn [bind].
  set (n := length (filter single (l_strings ts))). set (keys := map (fun c => (- Z.of_nat c)%Z) c').
  destruct (o_sort_ok _ Ho k keys) as (Hperm & Hsort). set (ids := o_sort o k keys) in *.
  assert (Hlk : length keys = 256) by (unfold keys; rewrite map_length; exact Hl'). rewrite Hlk in Hperm.
  assert (Hin : forall i, In i ids <-> i < 256).
  { intros i. split; intros Hi.
    - apply (Permutation_in _ Hperm), in_seq in Hi. lia.
    - apply (Permutation_in _ (Permutation_sym Hperm)), in_seq. lia. }
  assert (Hnd : NoDup ids) by (eapply Permutation_NoDup; [apply Permutation_sym; exact Hperm|apply seq_NoDup]).
  assert (Hsplit : firstn n ids ++ skipn n ids = ids) by apply firstn_skipn.
  set (F := firstn n ids) in *. set (K := skipn n ids) in *.
  assert (HF : forall i, In i F -> i < 256) by (intros i Hi; apply Hin; rewrite <- Hsplit; apply in_or_app; left; exact Hi).
  assert (HK : forall i, In i K -> i < 256) by (intros i Hi; apply Hin; rewrite <- Hsplit; apply in_or_app; right; exact Hi).
  assert (Hn256 : n = length (filter (tk ts) ids)) by (apply single_count; [apply (indexes_NoDup _ _ Hok)|exact Hnd|exact Hin]).
  assert (HlF : length F = n).
  { unfold F. rewrite firstn_length. pose proof (filter_le (tk ts) ids). lia. }
  assert (Hu : forall a r, In a F -> In r K -> uses ts f samples (n2b r) <= uses ts f samples (n2b a)).
  { intros a r Ha Hr. rewrite <- Hsplit in Hsort. pose proof (sorted_app _ _ _ Hsort a r Ha Hr) as Hz. cbn beta in Hz.
    unfold keys in Hz. change 0%Z with (- Z.of_nat 0)%Z in Hz. rewrite !(map_nth (fun c => (- Z.of_nat c)%Z)) in Hz.
    rewrite !Hc' in Hz by auto. lia. }
  assert (Hdisj : forall i, In i F -> In i K -> False).
  { intros i. rewrite <- Hsplit in Hnd. revert Hnd. clear. generalize F as l1, K as l2. intros l1 l2.
    induction l1 as [|a l1 IH]; intros Hnd H1 H2; [destruct H1|]. cbn in Hnd. apply NoDup_cons_iff in Hnd as (Ha & Hnd).
    destruct H1 as [->|H1]; [apply Ha, in_or_app; right; exact H2|auto]. }
  assert (EA : filter (fun i => negb (nth i tkv false)) F = filter (fun i => negb (tk ts i)) F).
  { apply filter_ext_in. intros i Hi. rewrite Htk by auto. reflexivity. }
  assert (ER : filter (fun i => nth i tkv false) K = filter (tk ts) K).
  { apply filter_ext_in. intros i Hi. rewrite Htk by auto. reflexivity. }
  exists F, K. rewrite EA, ER. split; [rewrite Hsplit; exact Hperm|]. split; [exact HlF|]. split; [|split; [exact Hu|split; [|reflexivity]]].
  - pose proof (filter_length_split (tk ts) F). rewrite <- Hsplit, filter_app, app_length in Hn256. lia.
  - rewrite Hsplit. unfold ids, keys. f_equal. rewrite <- (map_map (fun i => uses ts f samples (n2b i)) (fun c => (- Z.of_nat c)%Z)). f_equal.
    apply (nth_ext _ _ 0 (uses ts f samples (n2b 0))).
    + rewrite map_length, seq_length. exact Hl'.
    + intros i Hi. rewrite Hl' in Hi. rewrite Hc' by exact Hi.
      rewrite (map_nth (fun i => uses ts f samples (n2b i))), seq_nth by exact Hi. reflexivity.
Qed.

(** ** C78 *)

(** Except with the encoding [Hex], whose single-byte tokens are mandatory, the function does not
    panic, and the exchange is no loss on the samples of the statistics. *)
Theorem C78_byte_tokens_partial o k ts ps parts s : oracle_ok o -> l_built ts -> l_enc ts <> LHex -> ~ In [] (l_strings ts) ->
  good_samples (concat parts) -> l_tokenize ts ps parts = Ret s ->
  exists ts' changed f, optimize_byte_tokens o k ts s = Ret (ts', changed) /\
    (changed = false -> ts' = ts) /\
    l_built ts' /\ l_enc ts' = l_enc ts /\ length (l_tokens ts') = length (l_tokens ts) /\
    filter (fun t => negb (length (lt_string t) =? 1)) (l_tokens ts') = filter (fun t => negb (length (lt_string t) =? 1)) (l_tokens ts) /\
    (forall w, l_canonical ts (f w) w) /\
    (forall a b, In [a] (l_strings ts') -> ~ In [b] (l_strings ts') -> uses ts f (concat parts) b <= uses ts f (concat parts) a) /\
    forall c c', l_costs ts (concat parts) c -> l_costs ts' (concat parts) c' -> c' <= c.
Proof.
  intros Ho Hb Hh Hn Hs Es. pose proof (l_built_ok _ Hb) as Hok.
  destruct (l_tokenize_ok ts Hok Hn) as (f & Hcan & H). destruct (H ps parts) as (s1 & E1 & T); [exact Hs|].
  rewrite Es in E1. injection E1 as <-. set (samples := concat parts) in *.
  assert (Hf : forall w, l_optimal ts (f w) w) by (intros w; apply (Hcan w)).
  destruct (byte_tokens_shape o k ts ps f samples s Ho Hb Hn Hf T) as (F & K & Hperm & HlF & Hlen & Hu & _ & Eopt).
  rewrite Eopt. clear Eopt.
  assert (Hin : forall i, In i (F ++ K) <-> i < 256).
  { intros i. split; intros Hi.
    - apply (Permutation_in _ Hperm), in_seq in Hi. lia.
    - apply (Permutation_in _ (Permutation_sym Hperm)), in_seq. lia. }
  assert (Hnd : NoDup (F ++ K)) by (eapply Permutation_NoDup; [apply Permutation_sym; exact Hperm|apply seq_NoDup]).
  assert (HF : forall i, In i F -> i < 256) by (intros i Hi; apply Hin; apply in_or_app; left; exact Hi).
  assert (HK : forall i, In i K -> i < 256) by (intros i Hi; apply Hin; apply in_or_app; right; exact Hi).
  assert (Hdisj : forall i, In i F -> In i K -> False).
  { intros i. revert Hnd. clear. generalize F as l1, K as l2. intros l1 l2.
    induction l1 as [|a l1 IH]; intros Hnd H1 H2; [destruct H1|]. cbn in Hnd. apply NoDup_cons_iff in Hnd as (Ha & Hnd).
    destruct H1 as [->|H1]; [apply Ha, in_or_app; right; exact H2|auto]. }
  set (A := filter (fun i => negb (tk ts i)) F) in *. set (R := filter (tk ts) K) in *.
  assert (HndF : NoDup F /\ NoDup K) by (apply nodup_parts; exact Hnd).
  assert (HR' : forall i, In i R -> i < 256 /\ tk ts i = true) by (intros i Hi; apply filter_In in Hi as (Hi & Ht); auto).
  assert (HA' : forall i, In i A -> i < 256 /\ tk ts i = false).
  { intros i Hi; apply filter_In in Hi as (Hi & Ht). apply negb_true_iff in Ht. auto. }
  destruct (exchange_ok ts R A Hb Hh) as (ts1 & ts2 & X1 & X2 & X3 & X4 & X5 & X6 & X7); auto.
  { apply NoDup_filter, HndF. } { apply NoDup_filter, HndF. }
  assert (Hset : forall i, i < 256 -> In [n2b i] (l_strings ts2) <-> In i F).
  { intros i Hi. rewrite X7 by exact Hi. split.
    - intros [(Ht & HiR)|HiA]; [|apply filter_In in HiA; apply HiA].
      apply Hin in Hi. apply in_app_or in Hi as [Hi|Hi]; [exact Hi|]. exfalso. apply HiR.
      apply filter_In. auto.
    - intros HiF. destruct (tk ts i) eqn:Ei; [left|right].
      + split; [reflexivity|]. intros HiR. apply filter_In in HiR as (HiK & _). eauto.
      + apply filter_In. rewrite Ei. auto. }
  assert (Hm : forall y, In y (l_strings ts) -> single y = false -> In y (l_strings ts2)).
  { intros y Hy Hsg. apply in_map_iff in Hy as (t & <- & Ht). apply in_map_iff. exists t. split; [reflexivity|].
    assert (Ht' : In t (filter (fun t => negb (single (lt_string t))) (l_tokens ts))) by (apply filter_In; rewrite Hsg; auto).
    rewrite <- X6 in Ht'. apply filter_In in Ht'; apply Ht'. }
  assert (Hused : forall a b, In [a] (l_strings ts2) -> ~ In [b] (l_strings ts2) -> uses ts f samples b <= uses ts f samples a).
  { intros a b Ha Hbn. rewrite <- (n2b_b2n a) in Ha. rewrite <- (n2b_b2n b) in Hbn. apply Hset in Ha; [|apply b2n_lt].
    rewrite <- (n2b_b2n a), <- (n2b_b2n b). apply Hu; [exact Ha|].
    assert (Hbi : In (b2n b) (F ++ K)) by (apply Hin, b2n_lt). apply in_app_or in Hbi as [Hbi|Hbi]; [|exact Hbi].
    exfalso. apply Hbn, Hset; [apply b2n_lt|exact Hbi]. }
  assert (Hcost : forall c c', l_costs ts samples c -> l_costs ts2 samples c' -> c' <= c).
  { intros d d' Hd Hd'. eapply (exchange_cost ts f samples Hb Hn Hf ts2 (l_built_ok _ X3) X4 Hm F K); eassumption. }
  exists ts2. destruct A as [|a0 A0] eqn:EqA.
  - assert (ER0 : R = []) by (destruct R; [reflexivity|discriminate]). rewrite ER0 in *. cbn [mfold] in X1, X2.
    injection X1 as <-. injection X2 as <-.
    exists false, f. cbn [length Nat.eqb assert_that bind]. repeat (split; [solve [auto]|]). exact Hcost.
  - exists true, f. assert (Hr : (length R =? 0) = false) by (rewrite <- Hlen; reflexivity). rewrite Hr. cbn [negb assert_that bind].
    rewrite X1. cbn [bind]. rewrite X2. cbn [bind]. split; [reflexivity|]. split; [discriminate|].
    repeat (split; [solve [auto]|]). exact Hcost.
Qed.

(** ** False in general *)

(** A sample that is a token of more than one byte uses no single byte. *)
Lemma token_uses ts w i : l_built ts -> ~ In [] (l_strings ts) -> nth_error (l_strings ts) i = Some w -> single w = false ->
  exists f s, (forall w, l_optimal ts (f w) w) /\ l_tokenize ts false [[w]] = Ret s /\ l_total ts false f [w] s /\
    f w = [LTok i] /\ forall b, uses ts f [w] b = 0.
Proof.
  intros Hb Hn Hi Hsg. assert (Hw : w <> []) by (intros ->; apply Hn; eapply nth_error_In; exact Hi).
  destruct (proj2 (C76_legacy_tokenizer ts Hb) Hn) as (f & Hf & H). destruct (H false [[w]]) as (s & E & T & _).
  { cbn. intros x [<-|[]]. exact Hw. }
  destruct (Hf w) as (((Hseg & Hmin) & _) & _). destruct (single_token ts i w Hi) as (H1 & H2).
  destruct (cheap_single ts (f w) w (l_built_ok ts Hb) Hn Hw Hseg) as (j & Ej & Hj).
  { rewrite <- H2. apply Hmin; exact H1. }
  assert (j = i) as ->. { pose proof (l_built_ok ts Hb w) as G. apply G in Hi, Hj. congruence. }
  exists f, s. split; [intros x; apply (Hf x)|]. split; [exact E|]. split; [exact T|]. split; [exact Ej|].
  intros b. unfold uses. cbn [flat_map app]. rewrite Ej. cbn [app filter l_piece_string]. rewrite Hi.
  destruct (bstr_eqb_spec [b] w) as [<-|_]; [discriminate|]. reflexivity.
Qed.

Lemma token_cost ts w i c : l_built ts -> ~ In [] (l_strings ts) -> nth_error (l_strings ts) i = Some w -> l_costs ts [w] c -> c = 1.
Proof.
  intros Hb Hn Hi (g & Hg & ->). cbn [map]. rewrite sum_cons. change (sum []) with 0. rewrite Nat.add_0_r.
  assert (Hw : w <> []) by (intros ->; apply Hn; eapply nth_error_In; exact Hi).
  destruct (single_token ts i w Hi) as (H1 & H2).
  destruct (cheap_single ts (g w) w (l_built_ok ts Hb) Hn Hw (proj1 (Hg w))) as (j & Ej & Hj).
  { rewrite <- H2. apply (Hg w); exact H1. }
  rewrite Ej. reflexivity.
Qed.

Definition zz : bstr := [n2b 122; n2b 122].

(** Whatever the order of equal counts is, there are a set and a sample for which a byte is exchanged
    for another and nothing is gained. *)
Lemma no_gain o k : oracle_ok o -> exists ts parts s ts', l_built ts /\ l_enc ts <> LHex /\ ~ In [] (l_strings ts) /\
  good_samples (concat parts) /\ l_tokenize ts false parts = Ret s /\ optimize_byte_tokens o k ts s = Ret (ts', true) /\
  forall c c', l_costs ts (concat parts) c -> l_costs ts' (concat parts) c' -> c' = c.
Proof.
  intros Ho. set (keys := map (fun _ => (- Z.of_nat 0)%Z) (seq 0 256)). set (x := hd 0 (o_sort o k keys)).
  set (y := if x =? 97 then 98 else 97).
  assert (Hy : y < 256) by (unfold y; destruct (x =? 97); lia).
  assert (Hxy : x <> y) by (unfold y; destruct (Nat.eqb_spec x 97); lia).
  set (ts := set2 zz [n2b y]).
  assert (Hb : l_built ts) by (apply set2_built; discriminate).
  assert (Hn : ~ In [] (l_strings ts)) by (cbn; intros [H|[H|[]]]; discriminate H).
  destruct (token_uses ts zz 0 Hb Hn eq_refl eq_refl) as (f & s & Hf & Es & T & Ef & Hu).
  destruct (byte_tokens_shape o k ts false f [zz] s Ho Hb Hn Hf T) as (F & K & Hperm & HlF & Hlen & _ & Eids & Eopt).
  assert (Hg : good_samples (concat [[zz]])) by (intros w [<-|[]]; discriminate).
  destruct (C78_byte_tokens_partial o k ts false [[zz]] s Ho Hb ltac:(discriminate) Hn Hg Es)
    as (ts' & ch & _ & Er & _ & Hb' & He' & _ & Hmulti & _).
  assert (HF : F = [x]).
  { rewrite (map_ext _ (fun _ => (- Z.of_nat 0)%Z)) in Eids by (intros i; rewrite Hu; reflexivity). fold keys in Eids.
    assert (Hl1 : length F = 1) by (rewrite HlF; reflexivity). clear - Eids Hl1. destruct F as [|a [|b F]]; try discriminate.
    unfold x. rewrite <- Eids. reflexivity. }
  assert (Hx256 : x < 256).
  { assert (In x (seq 0 256)) as Hx by (apply (Permutation_in _ Hperm); rewrite HF; left; reflexivity). apply in_seq in Hx. lia. }
  assert (Hch : ch = true).
  { rewrite HF in Eopt. cbn [filter] in Eopt.
    assert (Etk : tk ts x = false).
    { destruct (tk ts x) eqn:Etk; [|reflexivity]. exfalso. apply tk_spec in Etk; [|exact Hx256]. destruct Etk as [Etk|[Etk|[]]]; [discriminate Etk|].
      cbn [lt_string] in Etk. injection Etk as Etk. apply n2b_inj_small in Etk; auto. }
    rewrite Etk in Eopt. cbn [negb] in Eopt. rewrite Er in Eopt. clear - Eopt. symmetry in Eopt.
    apply assert_that_bind in Eopt as (_ & Eopt). apply bind_ret in Eopt as (t1 & _ & Eopt). apply bind_ret in Eopt as (t2 & _ & Eopt).
    injection Eopt as _ <-. reflexivity. }
  subst ch. exists ts, [[zz]], s, ts'. split; [exact Hb|]. split; [discriminate|]. split; [exact Hn|]. split; [exact Hg|].
  split; [exact Es|]. split; [exact Er|]. cbn [concat app]. intros c c' Hc Hc'.
  assert (Hz : In zz (l_strings ts')).
  { assert (Ht : In (mkLtok zz false) (filter (fun t => negb (length (lt_string t) =? 1)) (l_tokens ts))) by (apply filter_In; split; [left|]; reflexivity).
    rewrite <- Hmulti in Ht. apply filter_In in Ht as (Ht & _). apply in_map_iff. eexists. split; [|exact Ht]. reflexivity. }
  assert (Hn' : ~ In [] (l_strings ts')).
  { intros H. apply in_map_iff in H as (t & Ht & H).
    assert (Ht2 : In t (filter (fun t => negb (length (lt_string t) =? 1)) (l_tokens ts'))) by (apply filter_In; rewrite Ht; auto).
    rewrite Hmulti in Ht2. apply filter_In in Ht2 as (Ht2 & _). apply Hn. apply in_map_iff. eauto. }
  apply In_nth_error in Hz as (j & Hj).
  rewrite (token_cost ts zz 0 c Hb Hn eq_refl Hc), (token_cost ts' zz j c' Hb' Hn' Hj Hc'). reflexivity.
Qed.

(** A set whose tokens are all mandatory, some of them single bytes, and a sample of another byte. *)
Lemma mandatory_panics ts z : l_built ts -> ~ In [] (l_strings ts) -> z < 256 -> ~ In [n2b z] (l_strings ts) ->
  0 < length (filter single (l_strings ts)) -> (forall t, In t (l_tokens ts) -> lt_mandatory t = true) ->
  exists s, l_tokenize ts false [[[n2b z]]] = Ret s /\ forall o k, oracle_ok o -> optimize_byte_tokens o k ts s = Panic.
Proof.
  intros Hb Hn Hz256 Hz Hpos Hm. pose proof (l_built_ok _ Hb) as Hok. set (w := [n2b z]) in *.
  destruct (proj2 (C76_legacy_tokenizer ts Hb) Hn) as (f & Hf & H). destruct (H false [[w]]) as (s & E & T & _).
  { intros x [<-|[]]. discriminate. }
  assert (Hopt : forall w, l_optimal ts (f w) w) by (intros x; apply (Hf x)).
  assert (Efw : f w = [LLit (n2b z)]).
  { pose proof (proj1 (Hopt w)) as Hs. remember (f w) as xs. clear - Hs Hz Hn. inversion Hs as [|x xs' u r Hx Hr E1 E2]; subst.
    assert (Hu : u <> []) by (apply (piece_nonempty ts Hn x); exact Hx).
    destruct u as [|b u]; [congruence|]. unfold w in E2. cbn [app] in E2. injection E2 as Eb E2. apply app_eq_nil in E2 as (-> & ->).
    apply (segs_nil ts _ Hn) in Hr as ->. rewrite Eb in Hx. f_equal. destruct x as [j|c|]; cbn in Hx; [exfalso|injection Hx as Hx; rewrite Hx; reflexivity|discriminate Hx].
    apply Hz. eapply nth_error_In; exact Hx. }
  exists s. split; [exact E|].
  intros o k Ho. cbn [concat app] in T.
  destruct (byte_tokens_shape o k ts false f [w] s Ho Hb Hn Hopt T) as (F & K & Hperm & HlF & Hlen & Hu & _ & ->).
  assert (Huses : forall b, uses ts f [w] b = if bstr_eqb [b] w then 1 else 0).
  { intros b. unfold uses. cbn [flat_map]. rewrite Efw. cbn [app filter l_piece_string]. fold w. destruct (bstr_eqb [b] w); reflexivity. }
  assert (Hu1 : uses ts f [w] (n2b z) = 1) by (rewrite Huses; unfold w; rewrite bstr_eqb_refl; reflexivity).
  assert (Htz : tk ts z = false).
  { destruct (tk ts z) eqn:Etk; [|reflexivity]. apply tk_spec in Etk; [contradiction|exact Hz256]. }
  assert (HzF : In z F).
  { assert (Hz' : In z (F ++ K)) by (apply (Permutation_in _ (Permutation_sym Hperm)), in_seq; lia).
    apply in_app_or in Hz' as [Hz'|HzK]; [exact Hz'|]. exfalso.
    destruct F as [|a F]; [cbn in HlF; lia|].
    pose proof (Hu a z (or_introl eq_refl) HzK) as Ha. rewrite Hu1, Huses in Ha.
    destruct (bstr_eqb_spec [n2b a] w) as [Ea|_]; [|lia]. injection Ea as Ea.
    assert (Ha256 : a < 256).
    { assert (In a (seq 0 256)) as Hx by (apply (Permutation_in _ Hperm); left; reflexivity). apply in_seq in Hx. lia. }
    apply n2b_inj_small in Ea; [|exact Ha256|exact Hz256]. subst a.
    assert (Hnd : NoDup ((z :: F) ++ K)) by (eapply Permutation_NoDup; [apply Permutation_sym; exact Hperm|apply seq_NoDup]).
    cbn [app] in Hnd. apply NoDup_cons_iff in Hnd as (Hnd & _). apply Hnd, in_or_app; right; exact HzK. }
  assert (HzA : In z (filter (fun i => negb (tk ts i)) F)) by (apply filter_In; rewrite Htz; auto).
  destruct (filter (fun i => negb (tk ts i)) F) as [|a A]; [destruct HzA|].
  destruct (filter (tk ts) K) as [|r R] eqn:ER; [discriminate Hlen|]. cbn [length Nat.eqb negb assert_that bind mfold].
  assert (Hr : In r K /\ tk ts r = true) by (apply filter_In; rewrite ER; left; reflexivity). destruct Hr as (HrK & Htr).
  assert (Hr256 : r < 256).
  { assert (In r (seq 0 256)) as Hx by (apply (Permutation_in _ Hperm), in_or_app; right; exact HrK). apply in_seq in Hx. lia. }
  apply tk_spec in Htr; [|exact Hr256]. apply in_map_iff in Htr as (t & Hts & Ht).
  rewrite (remove_mandatory ts [n2b r] t Hok Ht Hts); [reflexivity|]. apply Hm; exact Ht.
Qed.


Lemma add_mandatory_total l : forall ts, l_ok ts -> NoDup l -> (forall s, In s l -> ~ In s (l_strings ts)) ->
  exists ts', mfold add_mandatory l ts = Ret ts'.
Proof.
  induction l as [|s l IH]; intros ts Hok Hnd Hl; [exists ts; reflexivity|]. apply NoDup_cons_iff in Hnd as (Hs & Hnd).
  cbn [mfold]. unfold add_mandatory at 1.
  assert (Hns : ~ In s (l_strings ts)) by (apply Hl; left; reflexivity).
  rewrite (proj2 (smem_false _ _) (proj2 (indexes_None _ _ _ Hok) Hns)). cbn [negb assert_that bind].
  apply IH; [apply push_ok; assumption|exact Hnd|]. intros x Hx Hin. unfold l_strings, push_token in Hin. cbn in Hin. rewrite map_app in Hin.
  apply in_app_or in Hin as [Hin|[<-|[]]]; [apply (Hl x); [right; exact Hx|exact Hin]|contradiction].
Qed.

(** The tokens 0..9, a..f and 16 of the encoding [Hex] cannot be removed. *)

Lemma hex_new : exists ts, lset_new LHex = Ret ts.
Proof.
  unfold lset_new. apply add_mandatory_total.
    - intros s i. cbn. destruct i; split; discriminate.
    - apply (map_bytes_nodup (16 :: seq 48 10 ++ seq 97 6)).
      + cbn. repeat (constructor; [cbn; lia|]). constructor.
      + cbn. lia.
    - intros s _ []. 
Qed.
Lemma hex_set ts : lset_new LHex = Ret ts -> l_strings ts = mandatory_strings LHex /\ forall t, In t (l_tokens ts) -> lt_mandatory t = true.
Proof.
  unfold lset_new. intros Ets. apply add_mandatory_fold in Ets as (Et & _). cbn [l_tokens app] in Et. split.
  - unfold l_strings. rewrite Et, map_map. apply map_id.
  - intros t Ht. rewrite Et in Ht. apply in_map_iff in Ht as (q & <- & _). reflexivity.
Qed.

Lemma hex_panics : exists ts parts s, l_built ts /\ ~ In [] (l_strings ts) /\ good_samples (concat parts) /\
  l_tokenize ts false parts = Ret s /\ forall o k, oracle_ok o -> optimize_byte_tokens o k ts s = Panic.
Proof.
  destruct hex_new as (ts & Ets). assert (Hb : l_built ts) by (eapply lb_new; exact Ets).
  destruct (hex_set ts Ets) as (Hstr & Hm). clear Ets.
  assert (Hn : ~ In [] (l_strings ts)).
  { rewrite Hstr. unfold mandatory_strings. intros H. apply in_map_iff in H as (i & H & _). discriminate H. }
  assert (Hz : ~ In [n2b 122] (l_strings ts)).
  { rewrite Hstr. unfold mandatory_strings. intros H. apply in_map_iff in H as (i & H & Hi). injection H as H.
    assert (Hi' : i < 122) by (cbn in Hi; lia). assert (Hi2 : i < 256) by lia.
    apply n2b_inj_small in H; lia. }
  assert (Hpos : 0 < length (filter single (l_strings ts))) by (rewrite Hstr; cbn; lia).
  destruct (mandatory_panics ts 122 Hb Hn ltac:(lia) Hz Hpos Hm) as (s & E & H).
  exists ts, [[[n2b 122]]], s. split; [exact Hb|]. split; [exact Hn|]. split; [intros x [<-|[]]; discriminate|]. split; [exact E|exact H].
Qed.

Theorem C78_byte_tokens_refuted :
  (exists ts parts s, l_built ts /\ ~ In [] (l_strings ts) /\ good_samples (concat parts) /\
     l_tokenize ts false parts = Ret s /\ forall o k, oracle_ok o -> optimize_byte_tokens o k ts s = Panic) /\
  (forall o k, oracle_ok o -> exists ts parts s ts', l_built ts /\ l_enc ts <> LHex /\ ~ In [] (l_strings ts) /\
     good_samples (concat parts) /\ l_tokenize ts false parts = Ret s /\ optimize_byte_tokens o k ts s = Ret (ts', true) /\
     forall c c', l_costs ts (concat parts) c -> l_costs ts' (concat parts) c' -> c' = c).
Proof. split; [exact hex_panics|exact no_gain]. Qed.

(** A case of the hypotheses of the partial theorem, in which the exchange happens for every order: the
    token a is not used, the byte z is a literal. *)
Example C78_example : exists s, l_built (set2 zz la) /\ good_samples (concat [[[n2b 122]]]) /\
  l_tokenize (set2 zz la) false [[[n2b 122]]] = Ret s.
Proof.
  assert (Hb : l_built (set2 zz la)) by (apply set2_built; discriminate).
  assert (Hn : ~ In [] (l_strings (set2 zz la))) by (cbn; intros [H|[H|[]]]; discriminate H).
  assert (Hg : good_samples (concat [[[n2b 122]]])) by (intros w [<-|[]]; discriminate).
  destruct (proj2 (C76_legacy_tokenizer _ Hb) Hn) as (f & _ & H). destruct (H false [[[n2b 122]]] Hg) as (s & E & _).
  exists s. auto.
Qed.
