(** * The older optimizer: exchanging the single-byte tokens. *)
From Verif Require Import Base BaseLemmas LegacyModel LegacySpec LegacyTok PropLegacyTok LegacyOptModel LegacyOptProof.
From Verif Require OptBytesModel.
From Coq Require Import ZArith Sorted Permutation.

Lemma sum_cons a r : sum (a :: r) = a + sum r.
Proof. reflexivity. Qed.

(** ** Mandatory tokens *)
Lemma add_mandatory_fold l : forall ts ts', mfold add_mandatory l ts = Ret ts' ->
  l_tokens ts' = l_tokens ts ++ map (fun s => mkLtok s true) l /\ l_enc ts' = l_enc ts.
Proof.
  induction l as [|s l IH]; intros ts ts' H; cbn in H.
  - injection H as <-. rewrite app_nil_r. auto.
  - apply bind_ret in H as (t1 & H1 & H). apply add_mandatory_inv in H1 as (_ & ->).
    apply IH in H as (-> & ->). cbn. rewrite <- app_assoc. auto.
Qed.

Lemma remove_tokens ts s ts' : l_ok ts -> l_remove_token ts s = Ret ts' ->
  l_tokens ts' = filter (fun t => negb (bstr_eqb (lt_string t) s)) (l_tokens ts) /\ l_enc ts' = l_enc ts.
Proof.
  intros Hok H. destruct (l_remove_inv ts s ts' Hok H) as (i & t & Ht & Hs & _ & -> & -> & _). split; [|reflexivity].
  pose proof (indexes_NoDup _ _ Hok) as Hnd. unfold l_strings in Hnd. clear - Ht Hs Hnd.
  revert i Ht. induction (l_tokens ts) as [|x l IH]; intros [|i] Ht; cbn in Ht; try discriminate.
  - injection Ht as ->. cbn [firstn skipn app filter]. rewrite Hs, bstr_eqb_refl. cbn [negb].
    cbn in Hnd. apply NoDup_cons_iff in Hnd as (Hnin & _). rewrite Hs in Hnin. clear - Hnin.
    induction l as [|y l IH]; [reflexivity|]. cbn. cbn in Hnin. destruct (bstr_eqb_spec (lt_string y) s) as [E|_].
    + exfalso; apply Hnin; left; exact E.
    + cbn. f_equal. apply IH. intros H; apply Hnin; right; exact H.
  - cbn in Hnd. apply NoDup_cons_iff in Hnd as (Hnin & Hnd). cbn [firstn skipn app filter].
    destruct (bstr_eqb_spec (lt_string x) s) as [E|_].
    + exfalso. apply Hnin. rewrite E, <- Hs. apply in_map. eapply nth_error_In; exact Ht.
    + cbn [negb]. f_equal. apply IH; assumption.
Qed.

Lemma remove_ok ts s t : l_ok ts -> In t (l_tokens ts) -> lt_string t = s -> lt_mandatory t = false ->
  exists ts', l_remove_token ts s = Ret ts'.
Proof.
  intros Hok Hin Hs Hm. apply In_nth_error in Hin as (i & Hi). unfold l_remove_token.
  assert (E : nth_error (l_strings ts) i = Some s) by (unfold l_strings; rewrite nth_error_map, Hi; cbn; congruence).
  apply Hok in E. rewrite E. cbn [unwrap bind]. unfold idx. rewrite Hi. cbn [unwrap bind]. rewrite Hm. cbn [negb assert_that bind].
  unfold OptBytesModel.vremove. assert (i < length (l_tokens ts)) by (apply nth_error_Some; congruence).
  destruct (Nat.ltb_spec i (length (l_tokens ts))); [|lia]. cbn [bind]. eauto.
Qed.

Lemma remove_mandatory ts s t : l_ok ts -> In t (l_tokens ts) -> lt_string t = s -> lt_mandatory t = true ->
  l_remove_token ts s = Panic.
Proof.
  intros Hok Hin Hs Hm. apply In_nth_error in Hin as (i & Hi). unfold l_remove_token.
  assert (E : nth_error (l_strings ts) i = Some s) by (unfold l_strings; rewrite nth_error_map, Hi; cbn; congruence).
  apply Hok in E. rewrite E. cbn [unwrap bind]. unfold idx. rewrite Hi. cbn [unwrap bind]. rewrite Hm. reflexivity.
Qed.

Lemma remove_built_mandatory ts s ts' : l_ok ts -> l_remove_token ts s = Ret ts' ->
  forall t, In t (l_tokens ts) -> lt_mandatory t = true -> In t (l_tokens ts').
Proof.
  intros Hok H t Hin Hm. destruct (remove_tokens _ _ _ Hok H) as (-> & _). apply filter_In. split; [exact Hin|].
  destruct (bstr_eqb_spec (lt_string t) s) as [E|]; [|reflexivity].
  rewrite (remove_mandatory ts s t Hok Hin E Hm) in H. discriminate.
Qed.

(** No token is mandatory unless the encoding has tokens of its own. *)
Lemma built_free ts : l_built ts -> l_enc ts <> LHex -> l_enc ts <> LAll -> forall t, In t (l_tokens ts) -> lt_mandatory t = false.
Proof.
  induction 1 as [e ts H|ts s ts' Hb IH H|ts s ts' Hb IH H]; intros H1 H2 t Hin.
  - unfold lset_new in H. apply add_mandatory_fold in H as (E & Ee). cbn in E, Ee. rewrite Ee in *.
    assert (mandatory_strings e = []) as E0 by (destruct e; congruence || reflexivity). rewrite E0 in E. cbn in E.
    rewrite E in Hin. destruct Hin.
  - apply l_add_inv in H as [(-> & _)|(_ & ->)]; [auto|]. cbn in Hin, H1, H2. apply in_app_or in Hin as [Hin|[<-|[]]]; [auto|reflexivity].
  - destruct (remove_tokens _ _ _ (l_built_ok _ Hb) H) as (E & Ee). rewrite Ee in *. rewrite E in Hin.
    apply filter_In in Hin as [Hin _]. auto.
Qed.

Lemma built_mandatory ts : l_built ts -> forall s, In s (mandatory_strings (l_enc ts)) -> In (mkLtok s true) (l_tokens ts).
Proof.
  induction 1 as [e ts H|ts s ts' Hb IH H|ts s ts' Hb IH H]; intros x Hx.
  - unfold lset_new in H. apply add_mandatory_fold in H as (E & Ee). cbn [l_tokens l_enc] in E, Ee. rewrite Ee in Hx. rewrite E.
    cbn [app]. apply in_map_iff. eauto.
  - apply l_add_inv in H as [(-> & _)|(_ & ->)]; [auto|]. cbn in Hx |- *. apply in_or_app; left. auto.
  - apply (remove_built_mandatory ts s ts'); auto; [apply l_built_ok; exact Hb|].
    apply IH. destruct (remove_tokens _ _ _ (l_built_ok _ Hb) H) as (_ & <-). exact Hx.
Qed.

(** ** Removing and adding several *)
Lemma remove_fold (g : nat -> bstr) l : forall ts, l_built ts -> NoDup (map g l) ->
  (forall i, In i l -> exists t, In t (l_tokens ts) /\ lt_string t = g i /\ lt_mandatory t = false) ->
  exists ts', mfold (fun ts i => l_remove_token ts (g i)) l ts = Ret ts' /\ l_built ts' /\ l_enc ts' = l_enc ts /\
    l_tokens ts' = filter (fun t => negb (existsb (fun i => bstr_eqb (lt_string t) (g i)) l)) (l_tokens ts).
Proof.
  induction l as [|i l IH]; intros ts Hb Hnd Hl.
  - exists ts. cbn. repeat split; auto. clear. induction (l_tokens ts) as [|x r IH]; cbn; [reflexivity|]. f_equal; exact IH.
  - cbn [map] in Hnd. apply NoDup_cons_iff in Hnd as (Hi & Hnd).
    destruct (Hl i (or_introl eq_refl)) as (t & Ht & Hs & Hm). pose proof (l_built_ok _ Hb) as Hok.
    destruct (remove_ok ts (g i) t Hok Ht Hs Hm) as (ts1 & E1). destruct (remove_tokens _ _ _ Hok E1) as (T1 & Ee1).
    destruct (IH ts1) as (ts2 & E2 & Hb2 & Ee2 & T2).
    + eapply lb_remove; eassumption.
    + exact Hnd.
    + intros j Hj. destruct (Hl j (or_intror Hj)) as (u & Hu & Hus & Hum). exists u. split; [|auto].
      rewrite T1. apply filter_In. split; [exact Hu|]. rewrite Hus. apply negb_true_iff, bstr_eqb_neq.
      intros E. apply Hi. rewrite <- E. apply in_map; exact Hj.
    + exists ts2. split; [cbn [mfold]; rewrite E1; exact E2|]. split; [exact Hb2|]. split; [congruence|].
      rewrite T2, T1. clear. induction (l_tokens ts) as [|x r IH]; [reflexivity|]. cbn [filter existsb].
      destruct (bstr_eqb (lt_string x) (g i)) eqn:E; cbn [negb orb]; [exact IH|]. cbn [filter].
      destruct (existsb _ l); cbn [negb]; [exact IH|]. f_equal; exact IH.
Qed.

Lemma add_fold (g : nat -> bstr) l : forall ts, l_built ts -> NoDup (map g l) ->
  (forall i, In i l -> ~ In (g i) (l_strings ts)) ->
  exists ts', mfold (fun ts i => l_add_token ts (g i)) l ts = Ret ts' /\ l_built ts' /\ l_enc ts' = l_enc ts /\
    l_tokens ts' = l_tokens ts ++ map (fun i => mkLtok (g i) false) l.
Proof.
  induction l as [|i l IH]; intros ts Hb Hnd Hl.
  - exists ts. cbn. rewrite app_nil_r. auto.
  - cbn [map] in Hnd. apply NoDup_cons_iff in Hnd as (Hi & Hnd).
    assert (E1 : l_add_token ts (g i) = Ret (push_token ts (g i) false)).
    { unfold l_add_token. rewrite (proj2 (indexes_None _ _ _ (l_built_ok _ Hb)) (Hl i (or_introl eq_refl))). reflexivity. }
    destruct (IH (push_token ts (g i) false)) as (ts2 & E2 & Hb2 & Ee2 & T2).
    + eapply lb_add; eassumption.
    + exact Hnd.
    + intros j Hj Hin. unfold l_strings, push_token in Hin. cbn in Hin. rewrite map_app in Hin.
      apply in_app_or in Hin as [Hin|[E|[]]]; [apply (Hl j (or_intror Hj)); exact Hin|].
      cbn in E. apply Hi. rewrite E. apply in_map; exact Hj.
    + exists ts2. split; [cbn [mfold]; rewrite E1; exact E2|]. split; [exact Hb2|]. split; [exact Ee2|].
      rewrite T2. cbn. rewrite <- app_assoc. reflexivity.
Qed.

(** ** The counts *)
Definition is_byte (i : nat) (s : bstr) : bool := bstr_eqb [n2b i] s.
Definition single (s : bstr) : bool := length s =? 1.

Lemma zip_ok l : forall k, length k = length l -> zip_counts l k = Ret (combine l k).
Proof.
  induction l as [|t l IH]; intros [|n k] H; try discriminate; [reflexivity|]. cbn. rewrite IH by (injection H as H; exact H). reflexivity.
Qed.

Lemma single_cases (s : bstr) : (exists b, s = [b]) \/ (single s = false /\ forall b, s <> [b]).
Proof.
  destruct s as [|b [|c s]]; [right|left; eauto|right]; (split; [reflexivity|intros b' H; discriminate]).
Qed.

Lemma count_bytes_fold l : forall c n tk, length c = 256 -> length tk = 256 ->
  exists c' tk', mfold count_byte l (c, n, tk) = Ret (c', n + length (filter (fun p => single (lt_string (fst p))) l), tk') /\
    length c' = 256 /\ length tk' = 256 /\
    forall i, i < 256 ->
      nth i c' 0 = nth i c 0 + sum (map snd (filter (fun p => is_byte i (lt_string (fst p))) l)) /\
      nth i tk' false = nth i tk false || existsb (fun p => is_byte i (lt_string (fst p))) l.
Proof.
  induction l as [|[t k] l IH]; intros c n tk Hc Ht.
  - exists c, tk. cbn [mfold filter length map existsb]. rewrite Nat.add_0_r. split; [reflexivity|]. do 2 (split; [assumption|]).
    intros i _. split; [apply plus_n_O|symmetry; apply orb_false_r].
  - destruct (single_cases (lt_string t)) as [(b & Eb)|(Hs & Hnb)].
    + destruct (IH (upd (b2n b) (fun x => x + k) c) (S n) (upd (b2n b) (fun _ => true) tk)) as (c' & tk' & E & L1 & L2 & H).
      { rewrite upd_length; exact Hc. } { rewrite upd_length; exact Ht. }
      exists c', tk'. split; [|split; [exact L1|split; [exact L2|]]].
      * cbn [mfold count_byte]. rewrite Eb. unfold idx_upd. pose proof (b2n_lt b).
        destruct (Nat.ltb_spec (b2n b) (length c)); [|lia]. destruct (Nat.ltb_spec (b2n b) (length tk)); [|lia]. cbn [bind].
        rewrite E. cbn [filter fst]. rewrite Eb. cbn [single length Nat.eqb]. rewrite Nat.add_succ_r. reflexivity.
      * intros i Hi. destruct (H i Hi) as (-> & ->). pose proof (b2n_lt b). rewrite !nth_upd by lia.
        cbn [filter fst existsb]. rewrite Eb.
        destruct (Nat.eqb_spec i (b2n b)) as [->|Hne].
        -- assert (Ef : is_byte (b2n b) [b] = true) by (unfold is_byte; rewrite n2b_b2n; apply bstr_eqb_refl). rewrite Ef. cbn [map snd]. rewrite !sum_cons.
           split; [lia|]. rewrite orb_true_r. reflexivity.
        -- assert (Ef : is_byte i [b] = false).
           { apply bstr_eqb_neq. intros E'. injection E' as E'. apply Hne. rewrite <- E', b2n_n2b_small by lia. reflexivity. }
           rewrite Ef. auto.
    + destruct (IH c n tk Hc Ht) as (c' & tk' & E & L1 & L2 & H). exists c', tk'.
      split; [|split; [exact L1|split; [exact L2|]]].
      * cbn [mfold count_byte filter fst]. rewrite Hs. destruct (lt_string t) as [|b [|b' r]]; [exact E| |exact E].
        exfalso; apply (Hnb b); reflexivity.
      * intros i Hi. destruct (H i Hi) as (-> & ->). cbn [filter fst existsb].
        assert (Ef : is_byte i (lt_string t) = false) by (apply bstr_eqb_neq; intros E'; apply (Hnb (n2b i)); auto).
        rewrite Ef. auto.
Qed.

Lemma count_literals_fold lits : length lits = 256 -> forall l c, length c = 256 -> NoDup l -> (forall i, In i l -> i < 256) ->
  (forall i, In i l -> 0 < nth i lits 0 -> nth i c 0 = 0) ->
  exists c', mfold (count_literal lits) l c = Ret c' /\ length c' = 256 /\
    forall i, nth i c' 0 = if existsb (Nat.eqb i) l && (0 <? nth i lits 0) then nth i lits 0 else nth i c 0.
Proof.
  intros Hlits. induction l as [|j l IH]; intros c Hc Hnd Hb Hz.
  - exists c. cbn. auto.
  - apply NoDup_cons_iff in Hnd as (Hj & Hnd). pose proof (Hb j (or_introl eq_refl)) as Hj256.
    cbn [mfold]. unfold count_literal at 1. unfold idx at 1. rewrite (nth_error_nth' lits 0) by lia. cbn [unwrap bind].
    destruct (Nat.ltb_spec 0 (nth j lits 0)) as [Hpos|Hzero].
    + unfold idx. rewrite (nth_error_nth' c 0) by lia. cbn [unwrap bind]. rewrite (Hz j (or_introl eq_refl) Hpos). cbn [Nat.eqb assert_that bind].
      unfold idx_upd. destruct (Nat.ltb_spec j (length c)); [|lia]. cbn [bind].
      destruct (IH (upd j (fun _ => nth j lits 0) c)) as (c' & E & L & H').
      { rewrite upd_length; exact Hc. } { exact Hnd. } { intros i Hi; apply Hb; right; exact Hi. }
      { intros i Hi Hp. rewrite nth_upd by lia. destruct (Nat.eqb_spec i j) as [->|]; [contradiction|].
        apply Hz; [right; exact Hi|exact Hp]. }
      exists c'. split; [exact E|]. split; [exact L|]. intros i. rewrite H'. rewrite nth_upd by lia. cbn [existsb].
      destruct (Nat.eqb_spec i j) as [->|Hne]; cbn [orb andb].
      * destruct (existsb (Nat.eqb j) l) eqn:Ex.
        { exfalso. apply existsb_exists in Ex as (x & Hx & Ex). apply Nat.eqb_eq in Ex as ->. contradiction. }
        cbn [andb]. destruct (Nat.ltb_spec 0 (nth j lits 0)); [reflexivity|lia].
      * reflexivity.
    + cbn [bind]. destruct (IH c) as (c' & E & L & H'); auto.
      { intros i Hi; apply Hb; right; exact Hi. } { intros i Hi; apply Hz; right; exact Hi. }
      exists c'. split; [exact E|]. split; [exact L|]. intros i. rewrite H'. cbn [existsb].
      destruct (Nat.eqb_spec i j) as [->|Hne]; cbn [orb andb]; [|reflexivity].
      destruct (Nat.ltb_spec 0 (nth j lits 0)); [lia|]. rewrite andb_false_r. reflexivity.
Qed.

(** ** Sums *)
Lemma sum_add_at (g g' : nat -> nat) k v l : NoDup l -> In k l ->
  (forall i, In i l -> g' i = g i + if i =? k then v else 0) -> sum (map g' l) = sum (map g l) + v.
Proof.
  induction l as [|j l IH]; intros Hnd Hin H; [destruct Hin|]. apply NoDup_cons_iff in Hnd as (Hj & Hnd).
  cbn [map]. rewrite !sum_cons. rewrite (H j (or_introl eq_refl)).
  destruct (Nat.eqb_spec j k) as [->|Hne].
  - assert (E : map g' l = map g l).
    { apply map_ext_in. intros i Hi. rewrite (H i (or_intror Hi)). destruct (Nat.eqb_spec i k) as [->|]; [contradiction|]. lia. }
    rewrite E. lia.
  - destruct Hin as [E|Hin]; [contradiction|]. rewrite (IH Hnd Hin); [|intros i Hi; apply H; right; exact Hi]. lia.
Qed.

Lemma byte_sum (h : bstr -> nat) (S : list bstr) l : NoDup l -> (forall i, In i l <-> i < 256) ->
  sum (map h S) = sum (map h (filter (fun y => negb (single y)) S)) +
                  sum (map (fun i => length (filter (is_byte i) S) * h [n2b i]) l).
Proof.
  intros Hnd Hl. induction S as [|y S IH].
  - cbn [map filter length]. assert (E : sum (map (fun i => 0 * h [n2b i]) l) = 0).
    { clear. induction l as [|i l IH]; [reflexivity|]. cbn [map]. rewrite !sum_cons. rewrite IH. reflexivity. }
    rewrite E. reflexivity.
  - cbn [map]. change (sum (h y :: map h S)) with (h y + sum (map h S)). rewrite IH. cbn [filter].
    destruct (single_cases y) as [(b & ->)|(Hs & Hnb)].
    + cbn [single length Nat.eqb negb].
      match goal with |- _ + (_ + sum (map ?g l)) = _ + sum (map ?g' l) => rewrite (sum_add_at g g' (b2n b) (h [b]) l Hnd) end; [lia| |].
      * apply Hl, b2n_lt.
      * intros i Hi. apply Hl in Hi. destruct (Nat.eqb_spec i (b2n b)) as [->|Hne].
        -- assert (Ef : is_byte (b2n b) [b] = true) by (unfold is_byte; rewrite n2b_b2n; apply bstr_eqb_refl). rewrite Ef.
           rewrite n2b_b2n. cbn [length]. lia.
        -- assert (Ef : is_byte i [b] = false).
           { apply bstr_eqb_neq. intros E'. injection E' as E'. apply Hne. rewrite <- E', b2n_n2b_small by lia. reflexivity. }
           rewrite Ef. lia.
    + rewrite Hs. cbn [negb map]. rewrite !sum_cons.
      assert (E : map (fun i => length (if is_byte i y then y :: filter (is_byte i) S else filter (is_byte i) S) * h [n2b i]) l =
                  map (fun i => length (filter (is_byte i) S) * h [n2b i]) l).
      { apply map_ext. intros i. assert (Ef : is_byte i y = false) by (apply bstr_eqb_neq; intros E'; apply (Hnb (n2b i)); auto).
        rewrite Ef. reflexivity. }
      rewrite E. lia.
Qed.

Lemma sum_swap (u : nat -> nat) A : forall R, length A = length R -> (forall a r, In a A -> In r R -> u r <= u a) ->
  sum (map u R) <= sum (map u A).
Proof.
  induction A as [|a A IH]; intros [|r R] Hl H; try discriminate; [reflexivity|].
  cbn [map]. rewrite !sum_cons. specialize (IH R). cbn in Hl.
  assert (sum (map u R) <= sum (map u A)).
  { apply IH; [lia|]. intros x y Hx Hy. apply H; right; assumption. }
  pose proof (H a r (or_introl eq_refl) (or_introl eq_refl)). lia.
Qed.

Lemma top_sum (u : nat -> nat) (tk tk' : nat -> bool) L F K :
  length (filter (fun i => negb (tk i)) F) = length (filter tk K) ->
  (forall a r, In a F -> In r K -> u r <= u a) ->
  (forall i, In i F -> tk' i = true) -> (forall i, In i K -> tk' i = false) -> 1 <= L ->
  sum (map (fun i => u i * if tk' i then 1 else L) (F ++ K)) <= sum (map (fun i => u i * if tk i then 1 else L) (F ++ K)).
Proof.
  intros Hlen Hu HF HK HL. rewrite !map_app, !sum_app.
  assert (E1 : sum (map (fun i => u i * if tk i then 1 else L) F) =
               sum (map (fun i => u i * if tk' i then 1 else L) F) + (L - 1) * sum (map u (filter (fun i => negb (tk i)) F))).
  { clear - HF HL. induction F as [|i F IH]; [cbn; lia|]. cbn [map filter]. rewrite !sum_cons.
    rewrite IH by (intros j Hj; apply HF; right; exact Hj). rewrite (HF i (or_introl eq_refl)).
    destruct (tk i); cbn [negb map]; [lia|]. rewrite !sum_cons. nia. }
  assert (E2 : sum (map (fun i => u i * if tk i then 1 else L) K) + (L - 1) * sum (map u (filter tk K)) =
               sum (map (fun i => u i * if tk' i then 1 else L) K)).
  { clear - HK HL. induction K as [|i K IH]; [cbn; lia|]. cbn [map filter]. rewrite !sum_cons.
    rewrite <- IH by (intros j Hj; apply HK; right; exact Hj). rewrite (HK i (or_introl eq_refl)).
    destruct (tk i); cbn [map]; [|lia]. rewrite !sum_cons. nia. }
  assert (E3 : sum (map u (filter tk K)) <= sum (map u (filter (fun i => negb (tk i)) F))).
  { apply sum_swap; [exact Hlen|]. intros a r Ha Hr. apply filter_In in Ha as [Ha _]. apply filter_In in Hr as [Hr _]. auto. }
  nia.
Qed.

Lemma sorted_app {A} (R : A -> A -> Prop) F K : StronglySorted R (F ++ K) -> forall a k, In a F -> In k K -> R a k.
Proof.
  induction F as [|x F IH]; intros H a k Ha Hk; [destruct Ha|]. cbn in H. inversion H as [|? ? H1 H2]; subst.
  destruct Ha as [<-|Ha]; [|eapply IH; eassumption]. rewrite Forall_forall in H2. apply H2, in_or_app; right; exact Hk.
Qed.

Lemma filter_length_split {A} (p : A -> bool) l : length (filter p l) + length (filter (fun x => negb (p x)) l) = length l.
Proof. induction l as [|x l IH]; cbn; [reflexivity|]. destruct (p x); cbn; lia. Qed.

Lemma perm_sum (a b : list nat) : Permutation a b -> sum a = sum b.
Proof. induction 1; cbn; unfold sum in *; lia. Qed.

(** The number of single-byte tokens is the number of bytes that are tokens. *)
Lemma single_count (strs : list bstr) l : NoDup strs -> NoDup l -> (forall i, In i l <-> i < 256) ->
  length (filter single strs) = length (filter (fun i => existsb (is_byte i) strs) l).
Proof.
  intros Hnd Hl Hin. rewrite <- (map_length (fun i => [n2b i]) (filter _ l)). apply Permutation_length, NoDup_Permutation.
  - apply NoDup_filter; exact Hnd.
  - assert (G : NoDup (filter (fun i => existsb (is_byte i) strs) l)) by (apply NoDup_filter; exact Hl).
    assert (B : forall i, In i (filter (fun i => existsb (is_byte i) strs) l) -> i < 256)
      by (intros i Hi; apply filter_In in Hi as [Hi _]; apply Hin; exact Hi).
    revert G B. generalize (filter (fun i => existsb (is_byte i) strs) l). clear.
    induction l as [|i l IH]; intros G B; cbn; constructor; [|inversion G; subst; apply IH; auto; intros j Hj; apply B; right; exact Hj].
    intros Hi. apply in_map_iff in Hi as (j & E & Hj). injection E as E. inversion G as [|? ? Hni _]; subst. apply Hni.
    rewrite <- (b2n_n2b_small i), <- E, b2n_n2b_small; auto; [apply B; right; exact Hj|apply B; left; reflexivity].
  - intros y. rewrite filter_In, in_map_iff. split.
    + intros (Hy & Hs). destruct (single_cases y) as [(b & ->)|(Hs' & _)]; [|congruence].
      exists (b2n b). split; [rewrite n2b_b2n; reflexivity|]. apply filter_In. split; [apply Hin, b2n_lt|].
      apply existsb_exists. exists [b]. split; [exact Hy|]. unfold is_byte. rewrite n2b_b2n. apply bstr_eqb_refl.
    + intros (i & <- & Hi). apply filter_In in Hi as (_ & Hi). apply existsb_exists in Hi as (y & Hy & E).
      apply bstr_eqb_eq in E as <-. split; [exact Hy|reflexivity].
Qed.
