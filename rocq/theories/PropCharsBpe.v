(** * Adding strings in src/chars/optimizer.rs (property C75). *)
From Verif Require Import Base BaseLemmas Utf8 ProcessingModel PropProcessing CountModel PropCount.
From Verif Require Import CharsModel CharsOptProof PropCharsTok PropCharsOpt.

(** ** Specification *)

(** A cheapest way to make a text of pieces. *)
Definition best_pieces (ts : cset) (text : bstr) (ps : list piece) : Prop :=
  made_of ts text ps /\ forall ps', made_of ts text ps' -> cost ts ps <= cost ts ps'.

(** The least number of tokens for the samples. *)
Definition least_total (ts : cset) (samples : list bstr) (v : nat) : Prop :=
  exists pss, Forall2 (best_pieces ts) samples pss /\ v = sum (map (cost ts) pss).

(** [ts] is [ts0] with the strings [strs] added one after the other, each of
    which joins two tokens and was not there before. *)
Inductive new_strings (ts0 : cset) : list bstr -> cset -> Prop :=
| nst_none : new_strings ts0 [] ts0
| nst_add strs ts s : new_strings ts0 strs ts -> utf8 s -> (forall i, ~ stands_for ts i s) ->
    (exists i j a b, stands_for ts i a /\ a <> [] /\ stands_for ts j b /\ b <> [] /\ s = a ++ b) ->
    new_strings ts0 (strs ++ [s]) (fst (add_string ts s)).

(** ** Tokenizing the samples *)
Lemma merge_pairs m o p : NoDup (map fst o) ->
  pair_count (fold_left (fun m pc => pair_add m (fst pc) (snd pc)) o m) p = pair_count m p + pair_count o p.
Proof.
  revert m; induction o as [|(q, k) o IH]; intros m Hn; cbn [fold_left fst snd]; [unfold pair_count; cbn; lia|].
  cbn [map fst] in Hn. inversion Hn as [|? ? Hx Hn']; subst. rewrite IH by exact Hn'. rewrite pair_count_add.
  assert (U : pair_count ((q, k) :: o) p = if (fst p =? fst q) && (snd p =? snd q) then k else pair_count o p).
  { unfold pair_count. cbn [find fst snd]. destruct (_ && _); reflexivity. }
  rewrite U. clear U.
  destruct ((fst p =? fst q) && (snd p =? snd q)) eqn:E; [|lia].
  apply andb_true_iff in E as (E1 & E2). apply Nat.eqb_eq in E1, E2.
  assert (p = q) by (destruct p, q; cbn in *; congruence). subst q. cbn [snd].
  assert (pair_count o p = 0); [|lia]. unfold pair_count. destruct (find _ o) as [(q, k')|] eqn:Ef; [|reflexivity].
  apply find_some in Ef as (H1 & H2). exfalso. apply Hx. apply andb_true_iff in H2 as (H2 & H3). apply Nat.eqb_eq in H2, H3.
  cbn in *. assert (q = p) by (destruct p, q; cbn in *; congruence). subst. apply (in_map fst) in H1. exact H1.
Qed.

Lemma merge_ok m o : table_ok m -> table_ok o -> table_ok (fold_left (fun m pc => pair_add m (fst pc) (snd pc)) o m).
Proof.
  intros Hm (_ & Ho). revert m Hm. induction o as [|(q, k) o IH]; intros m Hm; cbn [fold_left]; [exact Hm|].
  apply IH; [intros e He; apply Ho; right; exact He|]. apply pair_add_ok; [apply (Ho (q, k)); left; reflexivity|exact Hm].
Qed.

Lemma tokenize_ok ts samples : cset_ok ts -> Forall utf8 samples ->
  exists st pss, tokenize ts samples = Ret st /\ Forall2 (best_pieces ts) samples pss /\ cst_set st = ts /\
    cst_total st = sum (map (cost ts) pss) /\ table_ok (cst_pairs st) /\
    forall p, pair_count (cst_pairs st) p = sum (map (fun ps => occurs p (neighbours (map trunc ps))) pss).
Proof.
  intros Hok Hu. unfold tokenize.
  assert (G : forall l s, Forall utf8 l -> cst_set s = ts -> table_ok (cst_pairs s) ->
    exists st pss, mfold (fun s sample => o <- process_slice ts sample ;; Ret (cstats_merge s o)) l s = Ret st /\
      Forall2 (best_pieces ts) l pss /\ cst_set st = ts /\ cst_total st = cst_total s + sum (map (cost ts) pss) /\
      table_ok (cst_pairs st) /\
      forall p, pair_count (cst_pairs st) p = pair_count (cst_pairs s) p + sum (map (fun ps => occurs p (neighbours (map trunc ps))) pss)).
  { induction l as [|t l IH]; intros s Hl Hs Ht; cbn [mfold].
    - exists s, []. split; [reflexivity|]. split; [constructor|]. split; [exact Hs|]. split; [cbn; lia|]. split; [exact Ht|].
      intros p. cbn. lia.
    - inversion Hl as [|? ? H1 H2]; subst.
      destruct (process_slice_ok (cst_set s) t Hok H1) as (o & ps & E & Hm & Hmin & O1 & O2 & O3 & O4 & O5).
      rewrite E. cbn [bind]. destruct (IH (cstats_merge s o)) as (st & pss & E' & F1 & F2 & F3 & F4 & F5); [exact H2|reflexivity|apply merge_ok; assumption|].
      exists st, (ps :: pss). split; [exact E'|]. split; [constructor; [split; assumption|exact F1]|]. split; [exact F2|].
      cbn [map]. rewrite sum_cons. split; [rewrite F3; cbn [cstats_merge cst_total]; lia|]. split; [exact F4|].
      intros p. cbn [map]. rewrite sum_cons, F5. cbn [cstats_merge cst_pairs]. rewrite merge_pairs by apply O4. rewrite O5. lia. }
  destruct (G samples (cstats_new ts)) as (st & pss & E & F1 & F2 & F3 & F4 & F5); auto.
  { split; [constructor|intros e []]. }
  exists st, pss. split; [exact E|]. split; [exact F1|]. split; [exact F2|]. split; [exact F3|]. split; [exact F4|]. exact F5.
Qed.

(** ** Choosing a pair *)
Lemma select_fold (pairs : list ((nat * nat) * nat)) : forall best,
  let r := fold_left (fun best pc =>
                match best with
                | None => Some pc
                | Some b => if snd b <? snd pc then Some pc else best
                end) pairs best in
  (forall x, r = Some x -> (best = Some x \/ In x pairs)) /\ (r = None -> best = None /\ pairs = []).
Proof.
  induction pairs as [|pc pairs IH]; intros best; cbn [fold_left]; [cbv zeta; auto|].
  set (best' := match best with None => Some pc | Some b => if snd b <? snd pc then Some pc else best end).
  specialize (IH best'). cbv zeta in *. destruct IH as (A & B). split.
  - intros x Hx. destruct (A x Hx) as [H|H]; [|right; right; exact H]. unfold best' in H.
    destruct best as [b|]; [destruct (snd b <? snd pc)|]; try (injection H as <-; right; left; reflexivity). left; exact H.
  - intros Hr. destruct (B Hr) as (H & _). unfold best' in H. destruct best as [b|]; [destruct (snd b <? snd pc)|]; discriminate.
Qed.

(** ** One string more *)
Lemma char_not_joined c a b : utf8_char c -> utf8 a -> a <> [] -> b <> [] -> c <> a ++ b.
Proof.
  intros Hc Ha Hna Hnb E. destruct Ha as [|c1 a' Hc1 Ha']; [congruence|]. rewrite <- app_assoc in E.
  pose proof (utf8_step_char c [] Hc) as H1. pose proof (utf8_step_char c1 (a' ++ b) Hc1) as H2.
  rewrite app_nil_r in H1. rewrite E in H1. rewrite H2 in H1. injection H1 as H1.
  rewrite !app_length in H1. destruct b; [congruence|]. cbn in H1. lia.
Qed.

Lemma made_more ts s : (forall c, utf8_char c -> c <> s) -> forall t ps, made_of ts t ps -> made_of (fst (add_string ts s)) t ps.
Proof.
  intros Hs. induction 1 as [|p s' r ps Hp Hm IH]; [constructor|]. constructor; [|exact IH].
  inversion Hp as [i s0 Hf Hne E1 E2|c Hc Hno E1 E2]; subst.
  - constructor; [|exact Hne]. unfold add_string. cbn [fst]. apply stands_for_snoc. left; exact Hf.
  - constructor; [exact Hc|]. intros i Hi. unfold add_string in Hi. cbn [fst] in Hi. apply stands_for_snoc in Hi as [Hi|(_ & Hi)].
    + exact (Hno i Hi).
    + injection Hi as <-. exact (Hs _ Hc eq_refl).
Qed.

Lemma cost_same ts s ps : cost (fst (add_string ts s)) ps = cost ts ps.
Proof. reflexivity. Qed.

Lemma neighbours_split ps a b : In (a, b) (neighbours ps) -> exists l r, ps = l ++ PTok a :: PTok b :: r.
Proof.
  induction ps as [|p ps IH]; [intros []|]. destruct ps as [|q ps]; [destruct p; intros []|].
  rewrite neighbours_cons. intros Hi. apply in_app_iff in Hi as [Hi|Hi].
  - destruct p as [i|], q as [j|]; try (destruct Hi; fail). destruct Hi as [E|[]]. injection E as -> ->. exists [], ps. reflexivity.
  - destruct (IH Hi) as (l & r & ->). exists (p :: l), r. reflexivity.
Qed.

Lemma occurs_in p l : 1 <= occurs p l -> In p l.
Proof.
  unfold occurs. induction l as [|q l IH]; cbn; [lia|]. destruct ((fst p =? fst q) && (snd p =? snd q)) eqn:E; [|auto].
  intros _. left. apply andb_true_iff in E as (E1 & E2). apply Nat.eqb_eq in E1, E2. destruct p, q; cbn in *; congruence.
Qed.

Lemma made_app_inv ts l r : forall t, made_of ts t (l ++ r) -> exists a b, t = a ++ b /\ made_of ts a l /\ made_of ts b r.
Proof.
  induction l as [|p l IH]; cbn; intros t H; [exists [], t; repeat split; [constructor|exact H]|].
  inversion H as [|? s x ? Hp Hm]; subst. destruct (IH _ Hm) as (a & b & -> & H1 & H2).
  exists (s ++ a), b. rewrite app_assoc. split; [reflexivity|]. split; [constructor; assumption|exact H2].
Qed.

(** two neighbours can be replaced by one token for both *)
Lemma made_join ts t l r a b sa sb i : made_of ts t (l ++ PTok a :: PTok b :: r) -> stands_for ts a sa -> stands_for ts b sb ->
  forall ts', (forall t ps, made_of ts t ps -> made_of ts' t ps) -> stands_for ts' i (sa ++ sb) ->
  made_of ts' t (l ++ PTok i :: r) /\ sa <> [] /\ sb <> [].
Proof.
  intros H Ha Hb ts' Hmore Hi. apply made_app_inv in H as (x & y & -> & H1 & H2).
  inversion H2 as [|? s1 y1 ? Hp1 Hm1]; subst. inversion Hm1 as [|? s2 y2 ? Hp2 Hm2]; subst.
  inversion Hp1 as [? ? F1 N1|]; subst. inversion Hp2 as [? ? F2 N2|]; subst.
  assert (s1 = sa) by (eapply stands_for_fun; eauto). assert (s2 = sb) by (eapply stands_for_fun; eauto). subst.
  split; [|split; assumption]. apply made_app; [apply Hmore; exact H1|]. rewrite app_assoc. constructor; [|apply Hmore; exact Hm2].
  constructor; [exact Hi|]. destruct sa; [congruence|discriminate].
Qed.

Lemma cost_join ts l a b r i : cost ts (l ++ PTok a :: PTok b :: r) = S (cost ts (l ++ PTok i :: r)).
Proof. rewrite !cost_app. unfold cost. cbn [map]. rewrite !sum_cons. cbn [piece_cost]. lia. Qed.

Lemma joined_step ts samples pss a b : cset_ok ts -> Forall2 (best_pieces ts) samples pss ->
  1 <= sum (map (fun ps => occurs (a, b) (neighbours ps)) pss) ->
  exists sa sb, stands_for ts a sa /\ stands_for ts b sb /\ sa <> [] /\ sb <> [] /\ utf8 (sa ++ sb) /\ (forall i, ~ stands_for ts i (sa ++ sb)) /\
    forall pss', Forall2 (best_pieces (fst (add_string ts (sa ++ sb)))) samples pss' ->
      sum (map (cost (fst (add_string ts (sa ++ sb)))) pss') + 1 <= sum (map (cost ts) pss).
Proof.
  intros Hok HF Hpos.
  assert (Hex : exists t ps, In ps pss /\ best_pieces ts t ps /\ In (a, b) (neighbours ps)).
  { clear Hok. induction HF as [|t ps samples pss Hp HF IH]; cbn [map] in Hpos; [cbn in Hpos; lia|]. rewrite sum_cons in Hpos.
    destruct (occurs (a, b) (neighbours ps)) as [|k] eqn:E.
    - destruct IH as (t' & ps' & H1 & H2 & H3); [lia|]. exists t', ps'. split; [right; exact H1|auto].
    - exists t, ps. split; [left; reflexivity|]. split; [exact Hp|]. apply occurs_in. lia. }
  destruct Hex as (t & ps & _ & (Hm & Hmin) & Hi). apply neighbours_split in Hi as (l & r & ->).
  pose proof Hm as Hm0. apply made_app_inv in Hm0 as (x & y & _ & _ & H2).
  inversion H2 as [|? s1 y1 ? Hp1 Hm1]; subst. inversion Hm1 as [|? s2 y2 ? Hp2 Hm2]; subst.
  inversion Hp1 as [? ? F1 N1|]; subst. inversion Hp2 as [? ? F2 N2|]; subst.
  exists s1, s2. split; [exact F1|]. split; [exact F2|]. split; [exact N1|]. split; [exact N2|].
  split; [apply utf8_app; eapply ok_utf8; eauto|].
  split.
  { intros i Hi. destruct (made_join ts _ l r a b s1 s2 i Hm F1 F2 ts (fun _ _ H => H) Hi) as (Hj & _).
    specialize (Hmin _ Hj). rewrite (cost_join ts l a b r i) in Hmin. lia. }
  assert (Hnc : forall c, utf8_char c -> c <> s1 ++ s2).
  { intros c Hc. apply char_not_joined; auto. eapply ok_utf8; eauto. }
  set (ts' := fst (add_string ts (s1 ++ s2))).
  assert (Hmore : forall t ps, made_of ts t ps -> made_of ts' t ps) by (apply made_more; exact Hnc).
  assert (Hnew : stands_for ts' (length (c_tokens ts)) (s1 ++ s2)).
  { unfold ts', add_string. cbn [fst]. apply stands_for_snoc. right. auto. }
  assert (Hle : forall t ps ps', best_pieces ts t ps -> best_pieces ts' t ps' -> cost ts' ps' <= cost ts ps).
  { intros t0 ps ps' (M1 & _) (_ & M2). apply (M2 ps). apply Hmore; exact M1. }
  assert (Hlt : forall t ps ps', best_pieces ts t ps -> In (a, b) (neighbours ps) -> best_pieces ts' t ps' -> cost ts' ps' + 1 <= cost ts ps).
  { intros t0 ps ps' (M1 & _) Hi (_ & M2). apply neighbours_split in Hi as (l' & r' & ->).
    destruct (made_join ts _ l' r' a b s1 s2 _ M1 F1 F2 ts' Hmore Hnew) as (Hj & _). specialize (M2 _ Hj).
    unfold ts' in M2 |- *. rewrite !cost_same in *. rewrite (cost_join ts l' a b r' (length (c_tokens ts))). lia. }
  clear Hm Hmin H2 Hm1 Hm2 Hp1 Hp2. intros pss' HF'. revert pss' HF' Hpos.
  clear -HF Hle Hlt. induction HF as [|t ps samples pss Hp HF IH]; intros pss' HF' Hpos; [cbn in Hpos; lia|].
  inversion HF' as [|? ps' ? pss'' Hp' HF'']; subst. cbn [map] in *. rewrite !sum_cons in *.
  assert (Hrest : sum (map (cost ts') pss'') <= sum (map (cost ts) pss)).
  { clear -HF HF'' Hle. revert pss'' HF''. induction HF as [|t ps samples pss Hp HF IH]; intros pss'' HF''; inversion HF''; subst; cbn [map]; [cbn; lia|].
    rewrite !sum_cons. specialize (IH _ H3). specialize (Hle _ _ _ Hp H1). lia. }
  destruct (occurs (a, b) (neighbours ps)) as [|k] eqn:E.
  - specialize (IH _ HF'' ltac:(lia)). specialize (Hle _ _ _ Hp Hp'). lia.
  - assert (Hi : In (a, b) (neighbours ps)) by (apply occurs_in; lia). specialize (Hlt _ _ _ Hp Hi Hp'). lia.
Qed.

Lemma best_small ts samples pss : Forall2 (best_pieces ts) samples pss -> (N.of_nat (length (c_tokens ts)) <= 2 ^ 16)%N ->
  forall p, sum (map (fun ps => occurs p (neighbours (map trunc ps))) pss) = sum (map (fun ps => occurs p (neighbours ps)) pss).
Proof.
  intros HF Hn p. induction HF as [|t ps samples pss (Hm & _) HF IH]; [reflexivity|]. cbn [map]. rewrite !sum_cons, IH.
  f_equal. f_equal. f_equal. apply (trunc_small (length (c_tokens ts))); [exact Hn|]. intros i Hi. eapply made_small; eauto.
Qed.

Lemma new_strings_len ts0 strs ts : new_strings ts0 strs ts -> length (c_tokens ts) = length (c_tokens ts0) + length strs.
Proof. induction 1 as [|strs ts s H IH Hu Hn Hj]; [cbn; lia|]. cbn. rewrite !app_length. cbn. lia. Qed.

Lemma new_strings_ok ts0 strs ts : cset_ok ts0 -> new_strings ts0 strs ts -> cset_ok ts.
Proof. intros H0. induction 1 as [|strs ts s H IH Hu Hn Hj]; [exact H0|]. apply (cset_ok_snoc ts (CStr s) s); auto. Qed.

Section Loop.
Variable order : nat -> list ((nat * nat) * nat) -> list ((nat * nat) * nat).
Hypothesis Horder : forall k l, Permutation (order k l) l.
Variable samples : list bstr.
Hypothesis Hu : Forall utf8 samples.
Variable n : nat.
Hypothesis Hn : (N.of_nat n <= 2 ^ 16)%N.
Variable ts0 : cset.
Hypothesis Hok0 : cset_ok ts0.

Lemma chars_loop_ok : forall fuel k best strs ts pss, new_strings ts0 strs ts -> tokenize ts samples = Ret best ->
  length (c_tokens ts) <= n -> n <= length (c_tokens ts) + fuel ->
  Forall2 (best_pieces ts) samples pss ->
  (exists st strs' ts' pss', chars_loop fuel order samples n k best = Ret st /\ cst_set st = ts' /\ new_strings ts0 strs' ts' /\
     length (c_tokens ts') = n /\ Forall2 (best_pieces ts') samples pss' /\ cst_total st = sum (map (cost ts') pss') /\
     cst_total st + length strs' <= sum (map (cost ts) pss) + length strs) \/
  (exists strs' ts' pss', chars_loop fuel order samples n k best = Panic /\ new_strings ts0 strs' ts' /\
     length (c_tokens ts') < n /\ Forall2 (best_pieces ts') samples pss' /\ Forall (fun ps => neighbours ps = []) pss').
Proof.
  induction fuel as [|fuel IH]; intros k best strs ts pss Hns Et Hle Hf HF;
    pose proof (new_strings_ok _ _ _ Hok0 Hns) as Hok;
    destruct (tokenize_ok ts samples Hok Hu) as (st & pss0 & Et' & F1 & F2 & F3 & F4 & F5);
    assert (st = best) by congruence; subst st; cbn [chars_loop]; rewrite F2;
    assert (Esum : sum (map (cost ts) pss0) = sum (map (cost ts) pss)).
  1,3: clear -F1 HF; revert pss HF; induction F1 as [|t ps samples pss0 (A1 & A2) F IH]; intros pss HF; inversion HF as [|? ps' ? pss' (B1 & B2) HF']; subst; [reflexivity|];
    cbn [map]; rewrite !sum_cons, (IH _ HF'); specialize (A2 _ B1); specialize (B2 _ A1); lia.
  - destruct (Nat.ltb_spec (length (c_tokens ts)) n) as [H|H]; [lia|]. left. exists best, strs, ts, pss0.
    split; [reflexivity|]. split; [exact F2|]. split; [exact Hns|]. split; [lia|]. split; [exact F1|]. split; [exact F3|]. lia.
  - destruct (Nat.ltb_spec (length (c_tokens ts)) n) as [H|H].
    2:{ left. exists best, strs, ts, pss0.
        split; [reflexivity|]. split; [exact F2|]. split; [exact Hns|]. split; [lia|]. split; [exact F1|]. split; [exact F3|]. lia. }
    assert (Hsmall : (N.of_nat (length (c_tokens ts)) <= 2 ^ 16)%N).
    { etransitivity; [|exact Hn]. lia. }
    pose proof (best_small ts samples pss0 F1 Hsmall) as Htr.
    unfold select_token_bpe. pose proof (select_fold (order k (cst_pairs best)) None) as Hsel. cbv zeta in Hsel.
    destruct (fold_left _ (order k (cst_pairs best)) None) as [((a, b), c)|].
    + destruct Hsel as (Hsel & _). destruct (Hsel _ eq_refl) as [E|Hin]; [discriminate|].
      apply (Permutation_in _ (Horder k (cst_pairs best))) in Hin.
      assert (Hpos : 1 <= sum (map (fun ps => occurs (a, b) (neighbours ps)) pss0)).
      { rewrite <- Htr, <- F5. destruct F4 as (T1 & T2). rewrite (pair_count_in _ _ _ T1 Hin). exact (T2 _ Hin). }
      destruct (joined_step ts samples pss0 a b Hok F1 Hpos) as (sa & sb & Fa & Fb & Na & Nb & Huj & Hnew & Hdec).
      pose proof Fa as (ta & Ea & Sa). pose proof Fb as (tb & Eb & Sb).
      cbn [unwrap bind fst snd]. unfold idx. rewrite Ea. cbn [unwrap bind]. rewrite Sa. cbn [unwrap bind]. rewrite Eb. cbn [unwrap bind].
      rewrite Sb. cbn [unwrap bind].
      pose proof (nst_add ts0 strs ts (sa ++ sb) Hns Huj Hnew ltac:(exists a, b, sa, sb; auto)) as Hns'.
      set (ts1 := fst (add_string ts (sa ++ sb))) in *.
      destruct (tokenize_ok ts1 samples (new_strings_ok _ _ _ Hok0 Hns') Hu) as (st1 & pss1 & Et1 & G1 & G2 & G3 & _).
      rewrite Et1. cbn [bind].
      destruct (IH (S k) st1 (strs ++ [sa ++ sb]) ts1 pss1 Hns' Et1) as [D|D].
      * unfold ts1. cbn. rewrite app_length. cbn. lia.
      * unfold ts1. cbn. rewrite app_length. cbn. lia.
      * exact G1.
      * left. destruct D as (st' & strs' & ts' & pss' & D1 & D2 & D3 & D4 & D5 & D6 & D7).
        exists st', strs', ts', pss'. split; [exact D1|]. split; [exact D2|]. split; [exact D3|]. split; [exact D4|]. split; [exact D5|]. split; [exact D6|].
        specialize (Hdec _ G1). rewrite app_length in D7. cbn [length] in D7. lia.
      * right. exact D.
    + destruct Hsel as (_ & Hsel). destruct (Hsel eq_refl) as (_ & Hnil). cbn [unwrap bind]. right.
      exists strs, ts, pss0. split; [reflexivity|]. split; [exact Hns|]. split; [exact H|]. split; [exact F1|].
      pose proof (Horder k (cst_pairs best)) as Hperm. rewrite Hnil in Hperm. apply Permutation_nil in Hperm.
      rewrite Hperm in F5.
      apply Forall_forall. intros ps Hps. destruct (neighbours ps) as [|p l] eqn:Enb; [reflexivity|]. exfalso.
      specialize (F5 p). rewrite Htr in F5. unfold pair_count in F5. cbn in F5.
      assert (Hge : occurs p (neighbours ps) <= sum (map (fun ps => occurs p (neighbours ps)) pss0)).
      { clear -Hps. induction pss0 as [|q l IH]; [destruct Hps|]. cbn [map]. rewrite sum_cons. destruct Hps as [->|Hps]; [lia|]. specialize (IH Hps). lia. }
      rewrite <- F5, Enb in Hge. unfold occurs in Hge. cbn in Hge. rewrite !Nat.eqb_refl in Hge. cbn in Hge. lia.
Qed.
End Loop.

(** C75, the full claim: for valid data and at least three tokens the optimizer
    returns a set with exactly the requested number of tokens. *)
Definition fills_the_set : Prop := forall order samples n,
  (forall k l, Permutation (order k l) l) -> Forall utf8 samples -> 3 <= n ->
  exists st, optimize_chars_tokens order samples n = Ret st /\ length (c_tokens (cst_set st)) = n.

(** Proved, whatever the order of the hash maps, for up to 2^16 tokens: either
    it returns a set of exactly [n] tokens, made from the character set by
    adding new strings, each of which lowers the number of tokens of the data
    by at least one, together with that least number; or it panics, and then
    because a set with too few tokens was reached in which no two tokens are
    neighbours any more. *)
Theorem C75_fills_the_set_partial : forall order samples n,
  (forall k l, Permutation (order k l) l) -> Forall utf8 samples -> 3 <= n -> (N.of_nat n <= 2 ^ 16)%N ->
  exists ts0 v0, optimize_chars_by_ext (count_all samples) n = Ret ts0 /\ least_total ts0 samples v0 /\
  ((exists st strs, optimize_chars_tokens order samples n = Ret st /\ new_strings ts0 strs (cst_set st) /\
      length (c_tokens (cst_set st)) = n /\ least_total (cst_set st) samples (cst_total st) /\
      cst_total st + length strs <= v0) \/
   (optimize_chars_tokens order samples n = Panic /\
    exists strs ts pss, new_strings ts0 strs ts /\ length (c_tokens ts) < n /\
      Forall2 (best_pieces ts) samples pss /\ Forall (fun ps => neighbours ps = []) pss)).
Proof.
  intros order samples n Ho Hu Hn3 Hn.
  destruct (by_ext_ok samples n Hu Hn3) as (ts0 & k & splits & groups & E & Hk & Eo & Hb & Hc & Hlen & [M1 _ _ _ _] & _).
  pose proof (built_ok _ Hb) as Hok.
  destruct (tokenize_ok ts0 samples Hok Hu) as (best & pss & Et & F1 & F2 & F3 & _).
  exists ts0, (sum (map (cost ts0) pss)). split; [exact E|]. split; [exists pss; auto|].
  assert (Hl0 : length (c_tokens ts0) <= n) by (rewrite M1, app_length, !map_length, seq_length; lia).
  unfold optimize_chars_tokens. rewrite E. cbn [bind]. rewrite Et. cbn [bind].
  destruct (chars_loop_ok order Ho samples Hu n Hn ts0 Hok n 0 best [] ts0 pss (nst_none ts0) Et Hl0 ltac:(lia) F1)
    as [(st & strs & ts & pss' & D1 & D2 & D3 & D4 & D5 & D6 & D7)|(strs & ts & pss' & D1 & D2 & D3 & D4 & D5)].
  - left. exists st, strs. rewrite D2. split; [exact D1|]. split; [exact D3|]. split; [exact D4|]. split; [exists pss'; auto|].
    cbn in D7. lia.
  - right. split; [exact D1|]. exists strs, ts, pss'. auto.
Qed.

(** The full claim is false: the text [a] has no pair of tokens to join. *)
Theorem C75_fills_the_set_refuted : ~ fills_the_set.
Proof.
  intros H. destruct (H (fun _ l => l) [[x61]] 4) as (st & E & _); [reflexivity| |lia|].
  - repeat constructor. apply utf8_ascii. repeat constructor; cbn; lia.
  - vm_compute in E. discriminate.
Qed.

(** The other case happens: [ababab...] with seven tokens. *)
Example C75_example : exists st, optimize_chars_tokens (fun _ l => l) [[x61; x62; x63; x61; x62; x61; x62; x61; x62]] 7 = Ret st /\
  cst_total st = 4 /\ length (c_tokens (cst_set st)) = 7.
Proof. eexists. split; [vm_compute; reflexivity|]. split; reflexivity. Qed.

(** The hypotheses of C73 are met by a set in which a character is written
    with two tokens. *)
Example C73_example : exists ts, optimize_chars_by_ext (count_all [[x61; x62; x63; x64]]) 4 = Ret ts /\
  char_encoding ts [x61] = Ret [2; 0] /\ char_encoding ts [x64] = Ret [3].
Proof. eexists. split; [vm_compute; reflexivity|]. split; reflexivity. Qed.
