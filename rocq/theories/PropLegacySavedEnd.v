(** * C84: when the earlier optimizer ends (src/optimizer.rs [optimize_token_set]). *)
From Verif Require Import Base BaseLemmas LegacyModel LegacySpec LegacyTok PropLegacyTok LegacyOptModel LegacyOptProof
  PropLegacyCache LegacyBytesProof PropLegacyBytes LegacyPairs LegacyValues PropLegacyBpe LegacyExchange PropLegacyExchange PropLegacyOptBpe PropLegacySaved.
From Coq Require Import ZArith Sorted Permutation.

(** Without tokens of one byte there is nothing to exchange. *)
Lemma no_singles o j k e n ts slow : oracle_ok o -> good_samples slow -> shape e n ts -> filter single (l_strings ts) = [] ->
  exists s, slow_stats o j ts slow = Ret s /\ l_costs ts slow (l_cost s) /\ optimize_byte_tokens o k ts s = Ret (ts, false).
Proof.
  intros Ho Hs [Hb He Hn _] H1. destruct (tokenize_samples o j ts false slow Ho (l_built_ok _ Hb) Hn Hs) as (f & s & Hf & E & T & Hc).
  exists s. split; [exact E|]. split; [exact Hc|].
  destruct (byte_tokens_shape o k ts false f slow s Ho Hb Hn (fun w => proj1 (Hf w)) T) as (F & K & _ & HlF & Hlen & _ & _ & ->).
  rewrite H1 in HlF. destruct F as [|a F]; [|discriminate HlF]. cbn [filter length] in *. rewrite <- Hlen. reflexivity.
Qed.

Lemma piece_nonempty ts x s : ~ In [] (l_strings ts) -> l_piece_string ts x = Some s -> s <> [].
Proof.
  intros Hn Hx ->. destruct x as [i|c|]; cbn in Hx; try discriminate Hx. apply Hn. eapply nth_error_In; exact Hx.
Qed.

Lemma seg_empty ts xs w : ~ In [] (l_strings ts) -> l_segments ts xs w -> w = [] -> xs = [].
Proof.
  intros Hn H E. destruct H as [|x xs s r Hx Hr]; [reflexivity|]. apply app_eq_nil in E as (-> & _). exfalso.
  exact (piece_nonempty ts x [] Hn Hx eq_refl).
Qed.

(** A text of one byte is one piece. *)
Lemma one_byte ts xs b : ~ In [] (l_strings ts) -> l_segments ts xs [b] -> exists x, xs = [x] /\ l_piece_string ts x = Some [b].
Proof.
  intros Hn H. remember [b] as w eqn:Ew. destruct H as [|x xs s r Hx Hr]; [discriminate Ew|].
  pose proof (piece_nonempty ts x s Hn Hx) as Hs.
  destruct s as [|c s]; [congruence|]. cbn in Ew. injection Ew as -> Ew. apply app_eq_nil in Ew as (-> & Er).
  rewrite (seg_empty ts xs r Hn Hr Er). exists x. rewrite Er. split; [reflexivity|exact Hx].
Qed.

Definition byte_price (ts : lset) (b : byte) : nat := if existsb (bstr_eqb [b]) (l_strings ts) then 1 else literal_cost (l_enc ts).

Lemma one_byte_cost ts xs b : ~ In [] (l_strings ts) -> l_optimal ts xs [b] -> l_seg_cost (l_enc ts) xs = byte_price ts b.
Proof.
  intros Hn (H & Hmin). destruct (one_byte ts xs b Hn H) as (x & -> & Hx). unfold byte_price.
  destruct (existsb (bstr_eqb [b]) (l_strings ts)) eqn:Eb.
  - apply existsb_in in Eb. apply In_nth_error in Eb as (i & Hi). destruct (single_token ts i [b] Hi) as (H1 & H2).
    pose proof (Hmin _ H1). rewrite H2 in H0. pose proof (seg_cost_pos ts (l_enc ts) _ _ H ltac:(discriminate)). lia.
  - destruct x as [i|c|]; cbn in Hx; try discriminate Hx.
    + exfalso. assert (In [b] (l_strings ts)) by (eapply nth_error_In; exact Hx). apply existsb_in in H0. congruence.
    + cbn. lia.
Qed.

Lemma bytes_cost ts bs c : ~ In [] (l_strings ts) -> l_costs ts (map (fun b => [b]) bs) c -> c = sum (map (byte_price ts) bs).
Proof.
  intros Hn (f & Hf & ->). f_equal. rewrite map_map. apply map_ext. intros b. apply one_byte_cost; [exact Hn|apply Hf].
Qed.

Lemma uses_bytes ts f bs b : ~ In [] (l_strings ts) -> (forall w, l_optimal ts (f w) w) ->
  uses ts f (map (fun b => [b]) bs) b = count_occ Byte.byte_eq_dec bs b.
Proof.
  intros Hn Hf. unfold uses. induction bs as [|a bs IH]; [reflexivity|]. cbn [map flat_map]. rewrite filter_app, app_length, IH.
  destruct (one_byte ts (f [a]) a Hn (proj1 (Hf [a]))) as (x & -> & Hx). cbn [filter]. rewrite Hx. cbn [count_occ].
  destruct (Byte.byte_eq_dec a b) as [->|Hne].
  - rewrite bstr_eqb_refl. reflexivity.
  - destruct (bstr_eqb_spec [b] [a]) as [E|_]; [injection E as ->; congruence|]. reflexivity.
Qed.

Lemma one_candidate ts f b x n : ~ In [] (l_strings ts) -> (forall w, l_optimal ts (f w) w) -> candidate ts f [[b]] x n -> x = [b].
Proof.
  intros Hn Hf H. destruct (one_byte ts (f [b]) b Hn (proj1 (Hf [b]))) as (p & Ep & Hp). destruct H as [c H|i j u v H Hu Hv].
  - cbn [flat_map] in H. rewrite Ep in H. cbn in H. destruct H as [->|[]]. cbn in Hp. congruence.
  - cbn [flat_map] in H. rewrite Ep in H. cbn in H. destruct p; destruct H.
Qed.

Lemma best_one ts s b x : clean ts -> best_without ts s [[b]] x -> x = [b].
Proof.
  intros Hc (ts1 & E1 & f & n & Hf & Hcand & _). destruct (clean_facts ts Hc) as (Hok & Hn & _).
  destruct (remove_tokens _ _ _ Hok E1) as (T1 & _).
  eapply one_candidate; [|intros w; apply Hf|exact Hcand].
  intros H. apply Hn. unfold l_strings in *. rewrite T1 in H. apply in_map_iff in H as (t & Et & H). apply filter_In in H as (H & _).
  apply in_map_iff. eauto.
Qed.

Definition qq : bstr := [n2b 113; n2b 113].
Definition ab : list byte := [n2b 97; n2b 98].

(** ** The last exchange of bytes may gain nothing, and then the program panics
    The samples are a part of the slow samples, every byte of which is equally frequent. *)
Theorem C84_saved_refuted : forall o, oracle_ok o -> exists slow samples fast ts,
  clean ts /\ l_enc ts = LDist8 /\ good_samples slow /\ no_zero slow /\ samples <> [] /\ incl samples slow /\ incl fast samples /\ enough ts fast /\
  forall fuel block, 2 <= fuel -> optimize_token_set fuel o (fun _ => false) slow samples fast ts (l_ntokens ts) block = Panic.
Proof.
  intros o Ho. set (slow := map (fun b => [b]) ab).
  set (keys := map (fun i => (- Z.of_nat (count_occ Byte.byte_eq_dec ab (n2b i)))%Z) (seq 0 256)). set (x := hd 0 (o_sort o 2 keys)).
  set (y := if x =? 97 then 98 else 97). set (sy := [n2b y] : bstr).
  assert (Hy : y = 97 \/ y = 98) by (unfold y; destruct (x =? 97); auto).
  assert (Hslow : good_samples slow) by (intros w [<-|[<-|[]]]; discriminate).
  assert (Hzslow : no_zero slow) by (intros w [<-|[<-|[]]] [H|[]]; discriminate H).
  assert (Hysl : incl [sy] slow).
  { intros w [<-|[]]. unfold sy, slow, ab. cbn [map]. destruct Hy as [-> | ->]; [left|right; left]; reflexivity. }
  assert (Hgs : good_samples [sy]) by (intros w Hw; apply Hslow, Hysl, Hw).
  assert (Hzs : no_zero [sy]) by (intros w Hw; apply Hzslow, Hysl, Hw).
  assert (Hyq : sy <> qq) by (unfold sy, qq; discriminate).
  set (ts := set1 qq).
  assert (Hc : clean ts).
  { split; [apply set1_built|]. intros s [<-|[]]. split; [discriminate|]. intros H. cbn in H. destruct H as [H|[H|[]]]; discriminate H. }
  assert (Hen : enough ts [sy]).
  { intros s [<-|[]]. exists sy. split; [left; reflexivity|]. right. intros [H|[]]. apply Hyq. symmetry. exact H. }
  exists slow, [sy], [sy], ts. split; [exact Hc|]. split; [reflexivity|]. split; [exact Hslow|]. split; [exact Hzslow|].
  split; [discriminate|]. split; [exact Hysl|]. split; [apply incl_refl|]. split; [exact Hen|].
  intros fuel block Hfuel. unfold optimize_token_set.
  assert (Ebpe : add_tokens_bpe fuel o (lcache_new [sy]) ts (l_ntokens ts) block = Ret (ts, lcache_new [sy])).
  { destruct fuel; cbn [add_tokens_bpe]; rewrite Nat.ltb_irrefl; reflexivity. }
  rewrite Ebpe. cbn [bind]. clear Ebpe.
  destruct (clean_facts ts Hc) as (Hok & Hn & _).
  assert (Hsh : shape LDist8 (l_ntokens ts) ts) by (constructor; [apply Hc|reflexivity|exact Hn|reflexivity]).
  destruct (no_singles o 0 0 LDist8 _ ts slow Ho Hslow Hsh eq_refl) as (s & Es & Hcs & Eb). rewrite Es. cbn [bind]. rewrite Eb. cbn [bind].
  destruct fuel as [|[|fuel]]; [lia|lia|]. cbn [opt_loop].
  assert (Hl : length (l_tokens ts) <= 256 * 256) by (change (length (l_tokens ts)) with 1; lia).
  destruct (raa_ok o LDist8 (lcache_new [sy]) (lcache_new [sy]) ts [] Ho (cache_new_good _ _ Hgs) Hc eq_refl Hl Hgs Hzs Hen)
    as (r & c1 & fast1 & att1 & Er & Hg1 & Hs1 & Hf1 & Hr). rewrite Er. cbn [bind]. cbn [lc_samples lcache_new] in *.
  assert (Hcost : forall ts', clean ts' -> l_enc ts' = LDist8 -> forall k, l_costs ts' [sy] k -> k = byte_price ts' (n2b y)).
  { intros ts' Hc' He' k Hk. rewrite (bytes_cost ts' [n2b y] k); [cbn [map]; rewrite sum_cons; apply Nat.add_0_r| |exact Hk]. apply (clean_facts ts' Hc'). }
  assert (Hrepl : forall s0 x0 ts', best_without ts s0 [sy] x0 -> replaced ts s0 x0 ts' -> l_tokens ts' = [mkLtok sy false] /\ l_enc ts' = LDist8).
  { intros s0 x0 ts' Hbw (Hin & _ & He & T). apply (best_one ts s0 (n2b y) x0 Hc) in Hbw. subst x0. fold sy in T.
    assert (s0 = qq) as -> by (destruct Hin as [H|[]]; injection H as <-; reflexivity).
    split; [|exact He]. rewrite T. reflexivity. }
  assert (Hp0 : byte_price ts (n2b y) = 8) by (clear - Hy; destruct Hy as [-> | ->]; reflexivity).
  assert (Hp1 : forall ts', l_tokens ts' = [mkLtok sy false] -> byte_price ts' (n2b y) = 1).
  { intros ts' T. unfold byte_price, l_strings. rewrite T. cbn [map lt_string existsb]. fold sy. rewrite bstr_eqb_refl. reflexivity. }
  destruct (costs_exist ts [sy] Hok Hn) as (k0 & Hk0). pose proof (Hcost ts Hc eq_refl k0 Hk0) as Ek0.
  destruct r as [ts1|].
  2:{ exfalso. destruct (Hr ltac:(change (length (removable ts)) with 1; lia) qq (or_introl eq_refl)) as (x0 & Hbw & Hcase).
      destruct Hcase as [->|(ts' & Hrep & Hc' & Hle)].
      - apply (best_one ts qq (n2b y) qq Hc) in Hbw. discriminate Hbw.
      - destruct (Hrepl _ _ _ Hbw Hrep) as (T & He). destruct (clean_facts ts' Hc') as (Hok' & Hn' & _). destruct (costs_exist ts' [sy] Hok' Hn') as (k' & Hk').
        specialize (Hle _ _ Hk0 Hk'). rewrite (Hcost ts' Hc' He k' Hk'), (Hp1 ts' T) in Hle. lia. }
  destruct Hr as (s0 & x0 & Hbw & Hrep & Hc1 & Hlen1 & _). destruct (Hrepl _ _ _ Hbw Hrep) as (T1 & He1).
  destruct (clean_facts ts1 Hc1) as (Hok1 & Hn1 & _).
  assert (Hen1 : enough ts1 [sy]).
  { intros s1 H1. unfold removable in H1. rewrite T1 in H1. destruct H1 as [<-|[]]. exists sy. split; left; reflexivity. }
  destruct (raa_ok o LDist8 c1 fast1 ts1 att1 Ho Hg1 Hc1 He1) as (r2 & c2 & fast2 & att2 & Er2 & Hg2 & Hs2 & Hf2 & Hr2); try (rewrite Hf1; assumption).
  { rewrite Hlen1; exact Hl. }
  rewrite Er2. cbn [bind].
  destruct r2 as [ts2|].
  { exfalso. destruct Hr2 as (_ & _ & _ & _ & Hc2 & _ & Hlt). rewrite Hs1 in Hlt. destruct (clean_facts ts2 Hc2) as (Hok2 & Hn2 & _).
    destruct (costs_exist ts1 [sy] Hok1 Hn1) as (k1 & Hk1). destruct (costs_exist ts2 [sy] Hok2 Hn2) as (k2 & Hk2).
    specialize (Hlt _ _ Hk1 Hk2). rewrite (Hcost ts1 Hc1 He1 k1 Hk1), (Hp1 ts1 T1) in Hlt. destruct Hk2 as (g & Hg & Ek2).
    cbn [map] in Ek2. rewrite sum_cons in Ek2. pose proof (seg_cost_pos ts2 (l_enc ts2) _ _ (proj1 (Hg sy)) ltac:(discriminate)). lia. }
  cbn [bind].
  destruct (tokenize_samples o 2 ts1 false slow Ho Hok1 Hn1 Hslow) as (f & s2 & Hf & E2 & T2 & Hcs2). unfold slow_stats at 1. rewrite E2. cbn [bind].
  assert (Hfo : forall w, l_optimal ts1 (f w) w) by (intros w; apply (Hf w)).
  destruct (byte_tokens_shape o 2 ts1 false f slow s2 Ho (proj1 Hc1) Hn1 Hfo T2) as (F & K & Hperm & HlF & Hlen & Hu & Eids & Eopt).
  assert (Hsh1 : shape LDist8 (l_ntokens ts1) ts1) by (constructor; [apply Hc1|exact He1|exact Hn1|reflexivity]).
  destruct (bytes_ok o 2 LDist8 _ ts1 slow s2 Ho Hslow Hsh1 ltac:(discriminate) E2 2) as (ts3 & ch & Eb3 & Hsh3 & _ & _).
  assert (HF : F = [x]).
  { rewrite (map_ext _ (fun i => (- Z.of_nat (count_occ Byte.byte_eq_dec ab (n2b i)))%Z)) in Eids by (intros i; unfold slow; rewrite uses_bytes by assumption; reflexivity).
    fold keys in Eids. assert (Hl1 : length F = 1) by (rewrite HlF; unfold l_strings; rewrite T1; reflexivity).
    clear - Eids Hl1. destruct F as [|a [|b F]]; try discriminate. unfold x. rewrite <- Eids. reflexivity. }
  assert (Hx256 : x < 256).
  { assert (In x (seq 0 256)) as Hx by (apply (Permutation_in _ Hperm); rewrite HF; left; reflexivity). apply in_seq in Hx. lia. }
  assert (Hx : x = 97 \/ x = 98).
  { destruct (Nat.eq_dec x 97) as [->|Hne]; [left; reflexivity|]. right.
    assert (HK : In 97 K).
    { assert (H97 : In 97 (F ++ K)) by (apply (Permutation_in _ (Permutation_sym Hperm)); apply in_seq; lia).
      apply in_app_or in H97 as [H97|H97]; [|exact H97]. rewrite HF in H97. destruct H97 as [H97|[]]. congruence. }
    assert (HxF : In x F) by (rewrite HF; left; reflexivity). pose proof (Hu x 97 HxF HK) as Hle. unfold slow in Hle. rewrite !uses_bytes in Hle by assumption.
    assert (E97 : count_occ Byte.byte_eq_dec ab (n2b 97) = 1) by reflexivity. rewrite E97 in Hle. clear - Hle Hne Hx256.
    assert (Hin : In (n2b x) ab) by (apply (count_occ_In Byte.byte_eq_dec); lia).
    destruct Hin as [H|[H|[]]]; apply n2b_inj_small in H; lia. }
  assert (Hxy : x <> y) by (unfold y; destruct (Nat.eqb_spec x 97); lia).
  assert (Hch : ch = true).
  { rewrite HF in Eopt. cbn [filter] in Eopt.
    assert (Etk : tk ts1 x = false).
    { destruct (tk ts1 x) eqn:Etk; [|reflexivity]. exfalso. apply tk_spec in Etk; [|exact Hx256]. unfold l_strings in Etk. rewrite T1 in Etk.
      destruct Etk as [Etk|[]]. cbn [lt_string] in Etk. injection Etk as Etk. apply n2b_inj_small in Etk; lia. }
    rewrite Etk in Eopt. cbn [negb] in Eopt. rewrite Eb3 in Eopt. clear - Eopt. symmetry in Eopt.
    apply assert_that_bind in Eopt as (_ & Eopt). apply bind_ret in Eopt as (t1 & _ & Eopt). apply bind_ret in Eopt as (t2 & _ & Eopt).
    injection Eopt as _ <-. reflexivity. }
  subst ch. rewrite Eb3. cbn [bind].
  destruct (slow_ok o 2 LDist8 _ ts3 slow Ho Hslow Hsh3) as (s3 & Es3 & Hcs3). rewrite Es3. cbn [bind].
  destruct (Nat.ltb_spec (l_cost s3) (l_cost s2)) as [Hlt|_]; [exfalso|reflexivity].
  pose proof Hsh3 as [_ He3 Hn3 Hsz3].
  apply (bytes_cost ts1 ab) in Hcs2; [|exact Hn1]. apply (bytes_cost ts3 ab) in Hcs3; [|exact Hn3]. rewrite Hcs2, Hcs3 in Hlt. clear Hcs2 Hcs3.
  assert (Hl3 : length (l_strings ts3) = 1).
  { unfold l_strings. rewrite map_length. unfold l_ntokens in Hsz3. rewrite He3, He1, T1 in Hsz3. cbn [length] in Hsz3. lia. }
  unfold ab in Hlt. cbn [map] in Hlt. rewrite !sum_cons in Hlt.
  destruct (l_strings ts3) as [|u [|v l]] eqn:E3; try discriminate Hl3.
  unfold byte_price in Hlt. rewrite E3, He1, He3 in Hlt. unfold l_strings in Hlt. rewrite T1 in Hlt. cbn [map lt_string] in Hlt.
  clear - Hlt Hy. unfold sy in Hlt.
  assert (Hab : bstr_eqb [n2b 97] u = true -> bstr_eqb [n2b 98] u = true -> False).
  { intros H1 H2. apply bstr_eqb_eq in H1, H2. subst u. discriminate H2. }
  cbn [existsb] in Hlt. destruct (bstr_eqb [n2b 97] u), (bstr_eqb [n2b 98] u);
    try (exfalso; apply Hab; reflexivity); destruct Hy as [-> | ->]; vm_compute in Hlt; lia.
Qed.

(** A case of the hypotheses of the partial theorem: a set that is saved, for every oracle. *)
Example C84_example : forall o timer, oracle_ok o -> exists s s',
  optimize_token_set 1 o timer [qq; la] [qq] [qq] (set1 qq) (l_ntokens (set1 qq)) 1 = Ret [(set1 qq, s); (set1 qq, s')] /\ l_cost s = 9 /\ l_cost s' = 9.
Proof.
  intros o timer Ho. set (ts := set1 qq). assert (Hslow : good_samples [qq; la]) by (intros w [<-|[<-|[]]]; discriminate).
  assert (Hg : good_samples [qq]) by (intros w [<-|[]]; discriminate).
  assert (Hz : no_zero [qq]) by (intros w [<-|[]] H; cbn in H; destruct H as [H|[H|[]]]; discriminate H).
  assert (Hc : clean ts).
  { split; [apply set1_built|]. intros s [<-|[]]. split; [discriminate|]. apply Hz. left; reflexivity. }
  destruct (clean_facts ts Hc) as (Hok & Hn & _).
  assert (Hsh : shape LDist8 (l_ntokens ts) ts) by (constructor; [apply Hc|reflexivity|exact Hn|reflexivity]).
  assert (Hen : enough ts [qq]) by (intros s [<-|[]]; exists qq; split; left; reflexivity).
  assert (Hcost : forall s, l_costs ts [qq; la] (l_cost s) -> l_cost s = 9).
  { intros s (g & Hg1 & ->). cbn [map]. rewrite !sum_cons. change (sum []) with 0.
    destruct (single_token ts 0 qq eq_refl) as (H1 & H2). pose proof (proj2 (Hg1 qq) _ H1) as H3. rewrite H2 in H3.
    pose proof (seg_cost_pos ts (l_enc ts) _ _ (proj1 (Hg1 qq)) ltac:(discriminate)) as H4.
    rewrite (one_byte_cost ts (g la) (n2b 97) Hn (Hg1 la)). change (byte_price ts (n2b 97)) with 8. lia. }
  destruct (no_singles o 0 0 LDist8 _ ts [qq; la] Ho Hslow Hsh eq_refl) as (s & Es & Hcs & Eb).
  destruct (no_singles o 1 1 LDist8 _ ts [qq; la] Ho Hslow Hsh eq_refl) as (s' & Es' & Hcs' & Eb').
  assert (Hl : length (l_tokens ts) <= 256 * 256) by (change (length (l_tokens ts)) with 1; lia).
  destruct (raa_ok o LDist8 (lcache_new [qq]) (lcache_new [qq]) ts [] Ho (cache_new_good _ _ Hg) Hc eq_refl Hl Hg Hz Hen)
    as (r & c1 & fast1 & att1 & Er & Hg1 & Hs1 & Hf1 & Hr).
  destruct r as [ts1|].
  { exfalso. destruct Hr as (_ & _ & _ & _ & Hc1 & _ & Hlt). cbn [lc_samples lcache_new] in Hlt. destruct (clean_facts ts1 Hc1) as (Hok1 & Hn1 & _).
    destruct (costs_exist ts [qq] Hok Hn) as (k & Hk). destruct (costs_exist ts1 [qq] Hok1 Hn1) as (k1 & Hk1). specialize (Hlt _ _ Hk Hk1).
    rewrite (token_cost ts qq 0 k (proj1 Hc) Hn eq_refl Hk) in Hlt. destruct Hk1 as (g & Hgo & Ek).
    cbn [map] in Ek. rewrite sum_cons in Ek. pose proof (seg_cost_pos ts1 (l_enc ts1) _ _ (proj1 (Hgo qq)) ltac:(discriminate)). lia. }
  exists s, s'. pose proof (Hcost s Hcs) as H9. pose proof (Hcost s' Hcs') as H9'. split; [|auto].
  unfold optimize_token_set. cbn [add_tokens_bpe]. fold ts. rewrite Nat.ltb_irrefl. cbn [bind]. rewrite Es. cbn [bind]. rewrite Eb. cbn [bind].
  cbn [opt_loop]. rewrite Er. cbn [bind]. rewrite Es'. cbn [bind]. rewrite Eb'. cbn [bind]. rewrite H9, H9'. reflexivity.
Qed.
