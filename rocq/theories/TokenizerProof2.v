(** * [process_slice]: the scan computes optimal costs, the back-trace counts
    one optimal segmentation. *)
From Verif Require Import Base BaseLemmas TokenSetModel TokenizerModel TokSpec TokenizerProof1.

(** ** Segmentations *)
Lemma segments_app ts ps qs s t :
  segments ts ps s -> segments ts qs t -> segments ts (ps ++ qs) (s ++ t).
Proof.
  induction 1 as [|p ps s r Hp Hps IH]; intros Hq; cbn; [exact Hq|].
  rewrite <- app_assoc. constructor; auto.
Qed.

Lemma segments_snoc ts ps s p x :
  segments ts ps s -> piece_string ts p = Some x -> segments ts (ps ++ [p]) (s ++ x).
Proof.
  intros Hs Hp. apply segments_app; [exact Hs|].
  rewrite <- (app_nil_r x). constructor; [exact Hp|constructor].
Qed.

Lemma segments_app_inv ts ps qs w : segments ts (ps ++ qs) w ->
  exists s t, w = s ++ t /\ segments ts ps s /\ segments ts qs t.
Proof.
  revert w; induction ps as [|p ps IH]; intros w H; cbn in H.
  - exists [], w; repeat split; [constructor|exact H].
  - inversion H as [|? ? s r Hp Hr]; subst. destruct (IH _ Hr) as (s1 & t & -> & H1 & H2).
    exists (s ++ s1), t. rewrite app_assoc. repeat split; auto. constructor; auto.
Qed.

Lemma segments_single ts p w : segments ts [p] w -> piece_string ts p = Some w.
Proof.
  intros H; inversion H as [|? ? s r Hp Hr]; subst. inversion Hr; subst.
  rewrite app_nil_r; exact Hp.
Qed.

Lemma stream_app ts ps qs : stream ts (ps ++ qs) = stream ts ps ++ stream ts qs.
Proof. apply flat_map_app. Qed.

Lemma stream_snoc_length ts ps p :
  length (stream ts (ps ++ [p])) = length (stream ts ps) + length (piece_tokens ts p).
Proof. rewrite stream_app, app_length; cbn. rewrite app_nil_r; reflexivity. Qed.

Lemma segments_fun ts ps : forall s t, segments ts ps s -> segments ts ps t -> s = t.
Proof.
  induction ps as [|p ps IH]; intros s t Hs Ht; inversion Hs; inversion Ht; subst; [reflexivity|].
  f_equal; [congruence|apply IH; assumption].
Qed.

Lemma longest_last_snoc ts ps p : longest_last ts ps ->
  (forall u qs q y z, segments ts (ps ++ [p]) u -> optimal ts (qs ++ [q]) u ->
     piece_string ts p = Some y -> piece_string ts q = Some z -> length z <= length y) ->
  longest_last ts (ps ++ [p]).
Proof.
  intros Hps Hp l p0 r u E Hu qs q y z.
  destruct r as [|r0 r1] using rev_ind.
  - apply app_inj_tail in E as (-> & ->). intros. eapply Hp; eauto.
  - clear IHr1. rewrite app_comm_cons, app_assoc in E. apply app_inj_tail in E as (-> & ->).
    intros. eapply (Hps l p0 r1 u); eauto.
Qed.

(** ** The scan *)
Section Scan.
Variable ts : tokenset.
Variable tk : tokenizer.
Hypothesis Htk : tk_ok ts tk.

Let D := [] :: strings ts.

(** The current state is the longest suffix of the text read so far that is a
    prefix of a string of the token set. *)
Definition at_state (w : bstr) (i : nat) : Prop :=
  exists st, nth_error (tk_states tk) i = Some st /\ suffix_of (ss_suffix st) w /\
    forall x, suffix_of x w -> In x (map ss_suffix (tk_states tk)) -> suffix_of x (ss_suffix st).

Lemma at_state_0 : at_state [] 0.
Proof.
  destruct (tk_state0 _ _ Htk) as (st & Hst & E). exists st. split; [exact Hst|].
  rewrite E. split; [apply suffix_refl|]. intros x Hx _; exact Hx.
Qed.

Lemma at_state_step w i b : at_state w i ->
  exists st j, nth_error (tk_states tk) i = Some st /\
    nth_error (ss_next st) (b2n b) = Some j /\ at_state (w ++ [b]) j.
Proof.
  intros (st & Hst & Hsuf & Hmax).
  destruct (tk_next _ _ Htk st b (nth_error_In _ _ Hst)) as (j & st' & Hj & Hpos & Hst' & Hl).
  exists st, j. split; [exact Hst|]. split; [exact Hj|].
  destruct Hl as [(-> & _)|(_ & x & Hx & Hne & Hxs & _ & Hxm)]; [lia|].
  rewrite nth_error_map, Hst' in Hx; cbn in Hx; injection Hx as <-.
  exists st'. split; [exact Hst'|]. split.
  - eapply suffix_trans; [exact Hxs|]. apply suffix_snoc_mono; exact Hsuf.
  - intros y Hy Hin. destruct (bstr_eq_dec y []) as [->|Hyne].
    + exists (ss_suffix st'); rewrite app_nil_r; reflexivity.
    + apply suffix_snoc in Hy as (z & -> & Hz); [|exact Hyne].
      assert (Hzin : In z (map ss_suffix (tk_states tk))).
      { apply (tk_state_in _ _ Htk). destruct z as [|c z]; [left; reflexivity|right].
        split; [discriminate|]. apply (tk_state_in _ _ Htk) in Hin as [E|(_ & r & Hr)].
        - destruct z; discriminate.
        - exists ([b] ++ r). rewrite app_assoc. exact Hr. }
      assert (Hzb : suffix_of (z ++ [b]) (ss_suffix st ++ [b]))
        by (apply suffix_snoc_mono, Hmax; assumption).
      apply Hxm; [exact Hzb|exact Hin|].
      apply suffix_length in Hzb. rewrite (app_length (ss_suffix st)) in Hzb. cbn in Hzb. lia.
Qed.

(** Span [i] is the longest dictionary suffix of [w] of length at most [n]. *)
Lemma longest_suffix_eq n s w i :
  suffix_of s w -> n <= length s -> longest D n s i -> longest D n w i.
Proof.
  intros Hs Hn [(-> & H)|(Hpos & x & Hx & Hne & Hxs & Hlen & Hmax)].
  - left. split; [reflexivity|]. intros x Hx Hne Hl Hin.
    apply (H x); auto. apply (suffix_both x s w); auto; lia.
  - right. split; [exact Hpos|]. exists x. repeat split; auto.
    + eapply suffix_trans; eauto.
    + intros y Hy Hin Hl. apply Hmax; auto. apply (suffix_both y s w); auto; lia.
Qed.

Lemma at_state_span w i st : at_state w i -> nth_error (tk_states tk) i = Some st ->
  longest D (length w) w (ss_span st).
Proof.
  intros (st' & Hst' & Hsuf & Hmax) Hst. rewrite Hst in Hst'; injection Hst' as <-.
  assert (Hall : forall y, suffix_of y w -> In y D -> suffix_of y (ss_suffix st)).
  { intros y Hy Hin. apply Hmax; [exact Hy|]. apply (tk_state_in _ _ Htk).
    destruct y as [|c y]; [left; reflexivity|right]. split; [discriminate|].
    exists []. rewrite app_nil_r. destruct Hin as [E|Hin]; [discriminate|exact Hin]. }
  pose proof (tk_state_good _ _ Htk) as Hg. rewrite Forall_forall in Hg.
  destruct (Hg st (nth_error_In _ _ Hst)) as [(E & ->)|(Hne & Hpos & Hl)].
  - left. split; [reflexivity|]. intros x Hx Hxne _ Hin. apply Hxne.
    rewrite E in Hall. apply suffix_nil, Hall; auto.
  - destruct Hl as [(E & _)|(_ & x & Hx & Hxne & Hxs & _ & Hxm)]; [lia|].
    right. split; [exact Hpos|]. exists x. split; [exact Hx|]. split; [exact Hxne|].
    split; [eapply suffix_trans; eauto|].
    split; [apply suffix_length; eapply suffix_trans; eauto|].
    intros y Hy Hin _. apply Hxm; auto. apply suffix_length; auto.
Qed.

(** [cand cs w i c]: span [i] is a dictionary suffix of [w], and using it last
    costs [c] in total, given the costs [cs] of all shorter prefixes. *)
Definition cand (cs : list cost_state) (w : bstr) (i c : nat) : Prop :=
  exists sp prev, nth_error (tk_spans tk) i = Some sp /\ 0 < i /\
    suffix_of (sp_string sp) w /\
    nth_error cs (length w - length (sp_string sp)) = Some prev /\
    c = cs_cost prev + sp_cost sp.

Lemma span_nonempty i sp : nth_error (tk_spans tk) i = Some sp -> 0 < i -> sp_string sp <> [].
Proof.
  intros Hi Hpos E. pose proof (tk_nodup _ _ Htk) as Hnd.
  rewrite <- (tk_strs _ _ Htk) in Hnd.
  assert (Hi' : nth_error (map sp_string (tk_spans tk)) i = Some [])
    by (rewrite nth_error_map, Hi; cbn; rewrite E; reflexivity).
  assert (H0 : nth_error (map sp_string (tk_spans tk)) 0 = Some [])
    by (rewrite (tk_strs _ _ Htk); reflexivity).
  rewrite <- Hi' in H0. apply (proj1 (NoDup_nth_error _) Hnd) in H0; [lia|].
  rewrite (tk_strs _ _ Htk); cbn; lia.
Qed.

Lemma nth_D i x : nth_error D i = Some x ->
  exists sp, nth_error (tk_spans tk) i = Some sp /\ sp_string sp = x.
Proof.
  unfold D. rewrite <- (tk_strs _ _ Htk), nth_error_map.
  destruct (nth_error (tk_spans tk) i) as [sp|]; [|discriminate].
  cbn. intros E; injection E as <-. eauto.
Qed.

Lemma span_in_D i sp : nth_error (tk_spans tk) i = Some sp -> In (sp_string sp) D.
Proof.
  intros H. unfold D. rewrite <- (tk_strs _ _ Htk). apply in_map. eapply nth_error_In; exact H.
Qed.

(** [better b r]: the result [r] is no worse than [b]. *)
Definition covers (r : option cost_state) (c : nat) : Prop :=
  exists m, r = Some m /\ cs_cost m <= c.

Lemma best_span_spec cs w : length cs = length w ->
  forall fuel n i best,
  n <= fuel -> n <= length w -> longest D n w i ->
  exists r, best_span fuel (tk_spans tk) cs i best = Ret r /\
    (r = best \/ exists m, r = Some m /\ cand cs w (cs_span m) (cs_cost m) /\
       (forall b, best = Some b -> cs_cost m < cs_cost b) /\
       (forall j sp spm, nth_error (tk_spans tk) j = Some sp -> length (sp_string sp) <= n ->
          nth_error (tk_spans tk) (cs_span m) = Some spm -> cand cs w j (cs_cost m) ->
          length (sp_string sp) <= length (sp_string spm))) /\
    (forall b, best = Some b -> covers r (cs_cost b)) /\
    (forall j sp c, nth_error (tk_spans tk) j = Some sp -> length (sp_string sp) <= n ->
        cand cs w j c -> covers r c).
Proof.
  intros Hcs. induction fuel as [|fuel IH]; intros n i best Hn Hw Hl.
  - assert (n = 0) as -> by lia.
    assert (i = 0) as ->.
    { destruct Hl as [(-> & _)|(_ & x & _ & Hne & _ & Hx & _)]; [reflexivity|].
      destruct x; cbn in Hx; [congruence|lia]. }
    cbn. exists best. split; [reflexivity|]. split; [left; reflexivity|]. split.
    + intros b ->. exists b; auto.
    + intros j sp c Hj Hlen (sp' & prev & Hj' & Hpos & _).
      exfalso. apply (span_nonempty j sp Hj Hpos). destruct (sp_string sp); cbn in Hlen; [reflexivity|lia].
  - destruct Hl as [(-> & Hno)|(Hpos & x & Hx & Hxne & Hxs & Hxn & Hxm)].
    + cbn. exists best. split; [reflexivity|]. split; [left; reflexivity|]. split.
      * intros b ->. exists b; auto.
      * intros j sp c Hj Hlen (sp' & prev & Hj' & Hpos & Hs & _).
        rewrite Hj in Hj'; injection Hj' as <-. exfalso.
        apply (Hno (sp_string sp)); auto; [eapply span_nonempty; eauto|eapply span_in_D; eauto].
    + cbn [best_span]. replace (i =? 0) with false by (symmetry; apply Nat.eqb_neq; lia).
      apply nth_D in Hx as (sp & Hi & Es). unfold idx at 1; rewrite Hi; cbn [unwrap bind].
      rewrite Es. rewrite checked_sub_le by lia. cbn [bind].
      assert (Hxl : length x <> 0) by (destruct x; cbn; congruence).
      destruct (nth_error cs (length cs - length x)) as [prev|] eqn:Ep;
        [|apply nth_error_None in Ep; lia].
      unfold idx; rewrite Ep; cbn [unwrap bind].
      set (c := cs_cost prev + sp_cost sp).
      set (best' := match best with
                    | None => Some (mkCost c i)
                    | Some b => if c <? cs_cost b then Some (mkCost c i) else best
                    end).
      assert (Hcand : cand cs w i c).
      { exists sp, prev. rewrite Es, <- Hcs. auto. }
      pose proof (tk_suffix _ _ Htk i sp Hi Hpos) as Hsuf. rewrite Es in Hsuf.
      destruct (IH (length x - 1) (sp_suffix sp) best') as (r & Hr & Hfrom & Hbest & Hall);
        [lia|lia|apply (longest_suffix_eq _ x); auto; lia|].
      exists r. split; [exact Hr|]. 
      assert (Hb' : covers best' c).
      { unfold best'. destruct best as [b|]; [destruct (Nat.ltb_spec c (cs_cost b))|];
          eexists; (split; [reflexivity|]); cbn; lia. }
      assert (Hcov : forall d, covers best' d -> covers r d).
      { intros d (m & Hm & Hle). destruct (Hbest m Hm) as (m' & Hm' & Hle').
        exists m'; split; [exact Hm'|lia]. }
      split; [|split].
      * assert (Hshort : forall j spj d, nth_error (tk_spans tk) j = Some spj -> length (sp_string spj) <= n ->
                  cand cs w j d -> length (sp_string spj) <= length x).
        { intros j spj d Hj Hlen (sp' & prev' & Hj' & Hjpos & Hs & _).
          rewrite Hj in Hj'; injection Hj' as <-.
          assert (Hsx : suffix_of (sp_string spj) x)
            by (apply Hxm; auto; eapply span_in_D; eauto).
          apply suffix_length in Hsx. lia. }
        assert (Hnew : forall j spj spm, nth_error (tk_spans tk) j = Some spj -> length (sp_string spj) <= n ->
                  nth_error (tk_spans tk) i = Some spm -> cand cs w j c ->
                  length (sp_string spj) <= length (sp_string spm)).
        { intros j spj spm Hj Hlen Hm Hd. rewrite Hi in Hm; injection Hm as <-. rewrite Es.
          eapply Hshort; eauto. }
        destruct Hfrom as [->|(m & Hm & Hmc & Hless & Hlong)].
        -- unfold best'. destruct best as [b|]; [destruct (Nat.ltb_spec c (cs_cost b)) as [Hlt|Hge]|].
           ++ right. eexists; split; [reflexivity|]. split; [exact Hcand|]. split; [|exact Hnew].
              intros b0 E; injection E as <-. exact Hlt.
           ++ left; reflexivity.
           ++ right. eexists; split; [reflexivity|]. split; [exact Hcand|]. split; [discriminate|exact Hnew].
        -- right. exists m. split; [exact Hm|]. split; [exact Hmc|].
           destruct Hb' as (mb & Emb & Hmb). pose proof (Hless mb Emb) as Hlt.
           split.
           ++ intros b ->. unfold best' in Emb. destruct (Nat.ltb_spec c (cs_cost b));
                injection Emb as <-; cbn in *; lia.
           ++ intros j spj spm Hj Hlen Hspm Hd.
              destruct (Nat.eq_dec (length (sp_string spj)) (length x)) as [El|Hnel].
              ** exfalso. assert (Hd' := Hd). destruct Hd' as (sp' & prev' & Hj' & Hjpos & Hs & Hp' & Ed).
                 rewrite Hj in Hj'; injection Hj' as <-.
                 assert (Esp : sp_string spj = x) by (apply (suffix_eq _ _ w); auto).
                 assert (j = i) as ->.
                 { pose proof (tk_nodup _ _ Htk) as Hnd. rewrite <- (tk_strs _ _ Htk) in Hnd.
                   apply (proj1 (NoDup_nth_error _) Hnd).
                   - apply nth_error_Some. rewrite nth_error_map, Hj. discriminate.
                   - rewrite !nth_error_map, Hj, Hi. cbn. congruence. }
                 rewrite Hi in Hj; injection Hj as <-.
                 rewrite Es, <- Hcs, Ep in Hp'. injection Hp' as <-. fold c in Ed. lia.
              ** apply (Hlong j spj spm Hj); auto. pose proof (Hshort j spj _ Hj Hlen Hd). lia.
      * intros b ->. apply Hcov. unfold best'.
        destruct (Nat.ltb_spec c (cs_cost b)); eexists; (split; [reflexivity|]); cbn; lia.
      * intros j spj d Hj Hlen Hd.
        destruct (Nat.eq_dec (length (sp_string spj)) (length x)) as [El|Hnel].
        -- assert (d = c) as ->; [|apply Hcov; exact Hb'].
           destruct Hd as (sp' & prev' & Hj' & Hjpos & Hs & Hp' & ->).
           rewrite Hj in Hj'; injection Hj' as <-.
           assert (Esp : sp_string spj = x) by (apply (suffix_eq _ _ w); auto).
           assert (j = i) as ->.
           { pose proof (tk_nodup _ _ Htk) as Hnd. rewrite <- (tk_strs _ _ Htk) in Hnd.
             apply (proj1 (NoDup_nth_error _) Hnd).
             - apply nth_error_Some. rewrite nth_error_map, Hj. discriminate.
             - rewrite !nth_error_map, Hj, Hi. cbn. congruence. }
           rewrite Hi in Hj; injection Hj as <-.
           rewrite Es, <- Hcs, Ep in Hp'. injection Hp' as <-. reflexivity.
        -- apply (Hall j spj); [exact Hj| |exact Hd].
           destruct Hd as (sp' & prev' & Hj' & Hjpos & Hs & _).
           rewrite Hj in Hj'; injection Hj' as <-.
           assert (Hsx : suffix_of (sp_string spj) x)
             by (apply Hxm; auto; eapply span_in_D; eauto).
           apply suffix_length in Hsx. lia.
Qed.

(** Costs computed so far are optimal, and spans lead back. *)
Definition cs_ok (bytes : bstr) (cs : list cost_state) : Prop :=
  (exists c0, nth_error cs 0 = Some c0 /\ cs_cost c0 = 0) /\
  forall k c, nth_error cs k = Some c ->
    (exists ps, optimal ts ps (firstn k bytes) /\ length (stream ts ps) = cs_cost c) /\
    (0 < k -> exists sp prev, nth_error (tk_spans tk) (cs_span c) = Some sp /\ 0 < cs_span c /\
        suffix_of (sp_string sp) (firstn k bytes) /\
        nth_error cs (k - length (sp_string sp)) = Some prev /\
        cs_cost c = cs_cost prev + sp_cost sp /\
        (forall j spj pj, nth_error (tk_spans tk) j = Some spj -> 0 < j ->
           suffix_of (sp_string spj) (firstn k bytes) ->
           nth_error cs (k - length (sp_string spj)) = Some pj ->
           cs_cost pj + sp_cost spj <= cs_cost c -> length (sp_string spj) <= length (sp_string sp))).

Lemma firstn_suffix (w x : bstr) : suffix_of x w ->
  w = firstn (length w - length x) w ++ x.
Proof.
  intros H. pose proof (firstn_skipn (length w - length x) w) as E.
  rewrite <- (suffix_skipn_inv _ _ H) in E. symmetry; exact E.
Qed.

Lemma cand_optimal bytes cs w m :
  length cs = length w -> (exists r, bytes = w ++ r) -> w <> [] -> cs_ok bytes cs ->
  cand cs w (cs_span m) (cs_cost m) ->
  (forall j c, cand cs w j c -> cs_cost m <= c) ->
  exists ps, optimal ts ps w /\ length (stream ts ps) = cs_cost m.
Proof.
  intros Hcs (rest & Hb) Hwne (_ & Hok) (sp & prev & Hsp & Hpos & Hs & Hp & Hc) Hmin.
  assert (Hfirst : forall k, k <= length w -> firstn k bytes = firstn k w).
  { intros k Hk. rewrite Hb, firstn_app. replace (k - length w) with 0 by lia.
    rewrite firstn_O, app_nil_r; reflexivity. }
  destruct (tk_good _ _ Htk _ _ Hsp Hpos) as (p & Hpo & Hps & Hpc).
  destruct (Hok _ _ Hp) as ((ps & (Hseg & Hopt) & Hlen) & _).
  rewrite Hfirst in Hseg by lia.
  exists (ps ++ [p]). split; [|rewrite stream_snoc_length; lia].
  split.
  - rewrite (firstn_suffix _ _ Hs). apply segments_snoc; assumption.
  - intros qs Hqs. rewrite stream_snoc_length, Hlen, <- Hpc, <- Hc.
    destruct qs as [|q0 qs0] using rev_ind.
    { inversion Hqs; congruence. }
    clear IHqs0. apply segments_app_inv in Hqs as (w1 & x & Ew & Hq1 & Hq2).
    apply segments_single in Hq2. rewrite stream_snoc_length.
    destruct (tk_complete _ _ Htk _ _ Hq2) as (j & spj & Hj & Hjpos & Hpj & Esj).
    assert (Hxl : length (sp_string spj) <> 0).
    { pose proof (span_nonempty j spj Hj Hjpos). destruct (sp_string spj); cbn; congruence. }
    assert (Hlw : length w = length w1 + length x) by (rewrite Ew, app_length; reflexivity).
    rewrite Esj in Hxl.
    destruct (nth_error cs (length w - length x)) as [pj|] eqn:Epj;
      [|apply nth_error_None in Epj; lia].
    assert (Hcj : cand cs w j (cs_cost pj + sp_cost spj)).
    { exists spj, pj. rewrite Esj. repeat split; auto. exists w1; exact Ew. }
    apply Hmin in Hcj.
    destruct (tk_good _ _ Htk _ _ Hj Hjpos) as (p' & Hp' & _ & Hpc').
    rewrite Hpj in Hp'; injection Hp' as <-. rewrite <- Hpc'.
    destruct (Hok _ _ Epj) as ((psj & (_ & Hoptj) & Hlenj) & _).
    specialize (Hoptj qs0).
    rewrite Hfirst in Hoptj by lia.
    replace (firstn (length w - length x) w) with w1 in Hoptj.
    + specialize (Hoptj Hq1). lia.
    + rewrite Hlw. replace (length w1 + length x - length x) with (length w1) by lia.
      rewrite Ew, firstn_app, firstn_all, Nat.sub_diag, app_nil_r; reflexivity.
Qed.

Hypothesis Hus : usable ts.

Lemma scan_step bytes w i cs b :
  length cs = S (length w) -> (exists r, bytes = w ++ b :: r) -> cs_ok bytes cs -> at_state w i ->
  exists j cs', scan_byte tk (i, cs) b = Ret (j, cs') /\
    length cs' = S (length (w ++ [b])) /\ cs_ok bytes cs' /\ at_state (w ++ [b]) j.
Proof.
  intros Hlen (rest & Hb) Hok Hat.
  destruct (at_state_step w i b Hat) as (st & j & Hst & Hj & Hat').
  unfold scan_byte. unfold idx at 1. rewrite Hst; cbn [unwrap bind].
  unfold idx at 1. rewrite Hj; cbn [unwrap bind].
  pose proof Hat' as (st' & Hst' & _).
  unfold idx at 1. rewrite Hst'; cbn [unwrap bind].
  pose proof (at_state_span _ _ _ Hat' Hst') as Hl.
  assert (Hlw : length (w ++ [b]) = S (length w)) by (rewrite app_length; cbn; lia).
  assert (Hcs : length cs = length (w ++ [b])) by lia.
  destruct (best_span_spec cs (w ++ [b]) Hcs (length cs) (length (w ++ [b])) (ss_span st') None)
    as (r & Hr & Hfrom & _ & Hall); [lia|lia|exact Hl|].
  rewrite Hr; cbn [bind].
  (* the single byte b is a candidate *)
  destruct Hus as (_ & _ & Hbytes). specialize (Hbytes b).
  apply in_strings in Hbytes as (p & Hp).
  destruct (tk_complete _ _ Htk _ _ Hp) as (k & spk & Hk & Hkpos & Hpk & Esk).
  assert (Hck : exists c, cand cs (w ++ [b]) k c).
  { destruct (nth_error cs (length (w ++ [b]) - 1)) as [pk|] eqn:Epk.
    - exists (cs_cost pk + sp_cost spk), spk, pk. rewrite Esk. repeat split; auto.
      exists w; reflexivity.
    - apply nth_error_None in Epk. lia. }
  destruct Hck as (c & Hck).
  assert (Hlk : length (sp_string spk) <= length (w ++ [b])) by (rewrite Esk; cbn; lia).
  destruct (Hall k spk c Hk Hlk Hck) as (m & -> & _). cbn [unwrap bind].
  exists j, (cs ++ [m]). split; [reflexivity|]. split; [rewrite app_length; cbn; lia|].
  split; [|exact Hat'].
  destruct Hfrom as [E|(m' & E & Hm & _ & Hlong)]; [discriminate|]. injection E as <-.
  assert (Hmin : forall j c, cand cs (w ++ [b]) j c -> cs_cost m <= c).
  { intros j' c' Hc'. pose proof Hc' as (sp' & prev' & Hj' & _ & Hs' & _).
    apply suffix_length in Hs'.
    destruct (Hall j' sp' c' Hj' Hs' Hc') as (m' & E & Hle). injection E as <-. exact Hle. }
  assert (Hfull : firstn (length cs) bytes = w ++ [b]).
  { rewrite Hcs, Hb. change (b :: rest) with ([b] ++ rest). rewrite app_assoc, firstn_app, firstn_all,
      Nat.sub_diag, app_nil_r; reflexivity. }
  destruct Hok as ((c0 & Hc0 & Hz) & Hok). split.
  - exists c0. split; [|exact Hz]. rewrite nth_error_app1; [exact Hc0|]. lia.
  - intros k' c' Hc'. destruct (Nat.lt_ge_cases k' (length cs)) as [Hlt|Hge].
    + rewrite nth_error_app1 in Hc' by exact Hlt.
      destruct (Hok _ _ Hc') as (H1 & H2). split; [exact H1|].
      intros Hk'. destruct (H2 Hk') as (sp & prev & Hsp & Hpos & Hs & Hprev & Hcost & Hlongk).
      exists sp, prev. split; [exact Hsp|]. split; [exact Hpos|]. split; [exact Hs|]. split.
      { rewrite nth_error_app1; [exact Hprev|]. apply nth_error_Some; congruence. }
      split; [exact Hcost|]. intros j0 spj pj Hj0 Hj0p Hsj Hpj. apply (Hlongk j0 spj pj); auto.
      rewrite nth_error_app1 in Hpj; [exact Hpj|lia].
    + rewrite nth_error_app2 in Hc' by exact Hge.
      destruct (k' - length cs) as [|d] eqn:Ed; [|destruct d; discriminate].
      injection Hc' as <-. assert (k' = length cs) as -> by lia.
      rewrite Hfull. split.
      * apply (cand_optimal bytes cs (w ++ [b]) m); auto.
        -- exists rest. rewrite Hb, <- app_assoc; reflexivity.
        -- destruct w; discriminate.
        -- split; [exists c0; auto|exact Hok].
      * intros _. destruct Hm as (sp & prev & Hsp & Hpos & Hs & Hprev & Hcost).
        exists sp, prev. split; [exact Hsp|]. split; [exact Hpos|]. split; [exact Hs|]. split.
        { rewrite Hcs, nth_error_app1; [exact Hprev|]. apply nth_error_Some; congruence. }
        split; [exact Hcost|]. intros j0 spj pj Hj0 Hj0p Hsj Hpj Hle.
        assert (Hne0 : length (sp_string spj) <> 0).
        { pose proof (span_nonempty _ _ Hj0 Hj0p). destruct (sp_string spj); cbn; congruence. }
        assert (Hcj : cand cs (w ++ [b]) j0 (cs_cost pj + sp_cost spj)).
        { exists spj, pj. rewrite nth_error_app1 in Hpj by lia. rewrite <- Hcs. repeat split; auto. }
        pose proof (Hmin _ _ Hcj) as Hgem. assert (cs_cost pj + sp_cost spj = cs_cost m) as Ee by lia.
        rewrite Ee in Hcj. apply (Hlong j0 spj sp); auto. apply suffix_length; exact Hsj.
Qed.

Lemma scan_all bytes :
  exists j cs, mfold (scan_byte tk) bytes (0, [mkCost 0 0]) = Ret (j, cs) /\
    length cs = S (length bytes) /\ cs_ok bytes cs.
Proof.
  assert (H : forall rest w i cs, bytes = w ++ rest -> length cs = S (length w) ->
            cs_ok bytes cs -> at_state w i ->
            exists j cs', mfold (scan_byte tk) rest (i, cs) = Ret (j, cs') /\
              length cs' = S (length bytes) /\ cs_ok bytes cs').
  { induction rest as [|b rest IH]; intros w i cs Hb Hlen Hok Hat; cbn [mfold].
    - rewrite app_nil_r in Hb. subst w. eauto.
    - destruct (scan_step bytes w i cs b Hlen (ex_intro _ rest Hb) Hok Hat)
        as (j & cs' & -> & Hlen' & Hok' & Hat'). cbn [bind].
      apply (IH (w ++ [b])); auto. rewrite <- app_assoc; exact Hb. }
  apply (H bytes []); auto.
  - split.
    + eexists; split; [reflexivity|]; reflexivity.
    + intros [|k] c Hc; [|destruct k; discriminate]. injection Hc as <-. split; [|lia].
      exists []. split; [|reflexivity]. split; [constructor|]. intros; cbn; lia.
  - apply at_state_0.
Qed.

(** ** The back-trace *)
Definition next_list (o : option nat) : list piece :=
  match o with Some t => [PTok t] | None => [] end.

Lemma adj_snoc2 i j ps a b : adj i j (ps ++ [PTok a; PTok b]) =
  adj i j (ps ++ [PTok a]) + (if (a =? i) && (b =? j) then 1 else 0).
Proof.
  induction ps as [|p ps IH]; cbn [adj app].
  - lia.
  - rewrite IH. destruct p as [x|x].
    + destruct ps as [|p' ps]; cbn [app]; [|destruct p'; lia]. lia.
    + lia.
Qed.

Lemma adj_snoc_seq i j ps q o : adj i j (ps ++ PSeq q :: next_list o) = adj i j ps.
Proof.
  induction ps as [|p ps IH]; cbn [adj app].
  - destruct o; reflexivity.
  - rewrite IH. destruct p as [x|x]; destruct ps as [|p' ps]; cbn [app]; auto.
Qed.

Lemma tok_range p t : piece_string ts (PTok t) = Some p -> t < ntokens ts.
Proof.
  cbn. unfold ntokens. intros H. apply nth_error_Some.
  destruct (nth_error (tokens ts) t); congruence.
Qed.

Lemma pair_index n i j a b : j < n -> b < n -> i * n + j = a * n + b -> i = a /\ j = b.
Proof. intros. assert (i = a) by nia. subst. lia. Qed.

Lemma back_trace_spec bytes cs : cs_ok bytes cs ->
  forall pos c,
  pos <= length bytes -> nth_error cs pos = Some c ->
  exists il ps,
    Forall2 (fun i p => exists sp, nth_error (tk_spans tk) i = Some sp /\ 0 < i /\
                                   piece_of sp = Some p) il ps /\
    segments ts ps (firstn pos bytes) /\
    length (stream ts ps) = cs_cost c /\
    longest_last ts ps /\
    forall fuel next sc pairs,
    pos <= fuel ->
    length sc = length (tk_spans tk) ->
    length pairs = ntokens ts * ntokens ts ->
    (forall t, next = Some t -> t < ntokens ts) ->
    exists pairs',
    back_trace fuel tk (ntokens ts) cs pos next sc pairs
      = Ret (fold_right (fun i v => upd i S v) sc il, pairs') /\
    length pairs' = length pairs /\
    forall i j, i < ntokens ts -> j < ntokens ts ->
      nth (i * ntokens ts + j) pairs' 0
      = nth (i * ntokens ts + j) pairs 0 + adj i j (ps ++ next_list next).
Proof.
  intros ((c0 & Hc0 & Hz) & Hok). set (n := ntokens ts).
  induction pos as [pos IH] using lt_wf_ind; intros c Hb Hc.
  destruct pos as [|pos'].
  - exists [], []. split; [constructor|]. split; [constructor|].
    rewrite Hc0 in Hc; injection Hc as <-. split; [cbn; lia|].
    split; [intros l p r u E; destruct l; discriminate|].
    intros fuel next sc pairs _ _ _ _. exists pairs.
    split; [destruct fuel; reflexivity|]. split; [reflexivity|].
    intros i j _ _. destruct next; cbn; lia.
  - set (pos := S pos') in *.
    destruct (Hok _ _ Hc) as (_ & Hlast).
    destruct (Hlast ltac:(unfold pos; lia)) as (sp & prev & Hsp & Hpos & Hs & Hprev & Hcost & Hlongk).
    destruct (tk_good _ _ Htk _ _ Hsp Hpos) as (p & Hpo & Hps & Hpc).
    assert (Hxl : length (sp_string sp) <> 0).
    { pose proof (span_nonempty _ _ Hsp Hpos). destruct (sp_string sp); cbn; congruence. }
    pose proof (suffix_length _ _ Hs) as Hsl. rewrite firstn_length_le in Hsl by exact Hb.
    destruct (IH (pos - length (sp_string sp)) ltac:(lia) prev)
      as (il & ps & Hil & Hseg & Hlen & Hll & Hbt); [lia|exact Hprev|].
    exists (il ++ [cs_span c]), (ps ++ [p]).
    split; [apply Forall2_app; [exact Hil|]; constructor; [|constructor]; exists sp; auto|].
    assert (Hsegp : segments ts (ps ++ [p]) (firstn pos bytes)).
    { rewrite (firstn_suffix _ _ Hs). rewrite firstn_length_le by exact Hb.
      rewrite firstn_firstn, Nat.min_l by lia. apply segments_snoc; assumption. }
    split; [exact Hsegp|].
    split; [rewrite stream_snoc_length, Hcost; lia|].
    split.
    { apply longest_last_snoc; [exact Hll|]. intros u qs q y z Hu Hopt Hy Hzq.
      rewrite Hps in Hy; injection Hy as <-.
      pose proof (segments_fun _ _ _ _ Hu Hsegp) as ->.
      destruct (tk_complete _ _ Htk _ _ Hzq) as (j & spj & Hj & Hjpos & Hpj & Esj).
      destruct (tk_good _ _ Htk _ _ Hj Hjpos) as (p' & Hp' & _ & Hpc').
      rewrite Hpj in Hp'; injection Hp' as <-.
      destruct Hopt as (Hqs & Hmin). specialize (Hmin _ Hsegp).
      rewrite !stream_snoc_length, Hlen, <- Hpc, <- Hpc', <- Hcost in Hmin.
      apply segments_app_inv in Hqs as (w1 & x & Ew & Hq1 & Hq2).
      apply segments_single in Hq2. rewrite Hzq in Hq2; injection Hq2 as ->.
      assert (Hlw : pos = length w1 + length x).
      { rewrite <- (firstn_length_le bytes Hb), Ew, app_length; reflexivity. }
      assert (Hxl' : length x <> 0).
      { pose proof (span_nonempty _ _ Hj Hjpos). rewrite Esj in *. destruct x; cbn; congruence. }
      assert (Hcl : pos < length cs) by (apply nth_error_Some; congruence).
      destruct (nth_error cs (pos - length x)) as [pj|] eqn:Epj;
        [|apply nth_error_None in Epj; lia].
      rewrite <- Esj. apply (Hlongk j spj pj Hj Hjpos); rewrite ?Esj; auto.
      { exists w1; exact Ew. }
      destruct (Hok _ _ Epj) as ((psj & (_ & Hoptj) & Hlenj) & _).
      specialize (Hoptj qs).
      replace (firstn (pos - length x) bytes) with w1 in Hoptj.
      - specialize (Hoptj Hq1). lia.
      - rewrite <- (Nat.min_l (pos - length x) pos) by lia. rewrite <- firstn_firstn, Ew.
        rewrite firstn_app. replace (pos - length x) with (length w1) by lia.
        rewrite firstn_all, Nat.sub_diag, app_nil_r; reflexivity. }
    intros fuel next sc pairs Hf Hsc Hpl Hnx.
    destruct fuel as [|fuel]; [unfold pos in *; lia|].
    set (next' := match p with PTok t => Some t | PSeq _ => None end).
    set (pairs1 := match p, next with
                   | PTok t, Some nx => upd (t * n + nx) S pairs
                   | _, _ => pairs
                   end).
    assert (Hn' : forall t, next' = Some t -> t < n).
    { unfold next'. destruct p as [t|q]; [|discriminate]. intros t' E; injection E as <-.
      eapply tok_range; exact Hps. }
    assert (Hlt : forall t nx, p = PTok t -> next = Some nx -> t * n + nx < length pairs).
    { intros t nx -> Hnx'. rewrite Hpl. apply tok_range in Hps. apply Hnx in Hnx'.
      fold n in Hps. nia. }
    assert (Hpl1 : length pairs1 = length pairs).
    { unfold pairs1. destruct p as [t|q]; [destruct next as [nx|]|]; auto. apply upd_length. }
    destruct (Hbt fuel next' (upd (cs_span c) S sc) pairs1) as (pairs' & Hbt' & Hpl' & Hadj);
      [unfold pos in *; lia|rewrite upd_length; exact Hsc|congruence|exact Hn'|].
    exists pairs'. split; [|split].
    + cbn [back_trace]. replace (pos =? 0) with false by (unfold pos; reflexivity).
      unfold idx at 1. rewrite Hc; cbn [unwrap bind].
      unfold idx_upd at 1. rewrite (proj2 (Nat.ltb_lt (cs_span c) (length sc)))
        by (rewrite Hsc; apply nth_error_Some; congruence). cbn [bind].
      unfold idx at 1. rewrite Hsp; cbn [unwrap bind].
      assert (Hinner :
        (match sp_content sp with
         | SToken t =>
             match next with
             | Some nx => ps0 <- idx_upd pairs (t * n + nx) S ;; Ret (Some t, ps0)
             | None => Ret (Some t, pairs)
             end
         | _ => Ret (None, pairs)
         end) = Ret (next', pairs1)).
      { unfold piece_of in Hpo. unfold next', pairs1.
        destruct (sp_content sp) as [|t|q]; [discriminate| |]; injection Hpo as <-; [|reflexivity].
        destruct next as [nx|]; [|reflexivity].
        unfold idx_upd. rewrite (proj2 (Nat.ltb_lt _ _) (Hlt t nx eq_refl eq_refl)). reflexivity. }
      rewrite Hinner; cbn [bind]. rewrite checked_sub_le by lia. cbn [bind].
      rewrite Hbt'. rewrite fold_right_app. reflexivity.
    + congruence.
    + intros i j Hi Hj. rewrite (Hadj i j Hi Hj).
      unfold pairs1, next'. destruct p as [t|q].
      * destruct next as [nx|]; cbn [next_list]; rewrite <- app_assoc; cbn [app].
        -- rewrite adj_snoc2. rewrite nth_upd by (apply (Hlt t nx); reflexivity).
           destruct ((t =? i) && (nx =? j)) eqn:E.
           ++ apply andb_true_iff in E as (E1 & E2). apply Nat.eqb_eq in E1, E2; subst i j.
              rewrite Nat.eqb_refl. lia.
           ++ destruct (Nat.eqb_spec (i * n + j) (t * n + nx)) as [Eq|_]; [|lia].
              apply pair_index in Eq; [|exact Hj|apply Hnx; reflexivity].
              destruct Eq as [-> ->]. rewrite !Nat.eqb_refl in E; discriminate.
        -- reflexivity.
      * rewrite <- app_assoc; cbn [app]. rewrite adj_snoc_seq. cbn [next_list].
        rewrite app_nil_r. lia.
Qed.

(** ** The final counting loop *)
Lemma count_loop_tok tc l cnt :
  (forall t, In t l -> t < length tc) ->
  exists tc', mfold (fun tc t => idx_upd tc t (fun x => x + cnt)) l tc = Ret tc' /\
    length tc' = length tc /\
    forall t, nth t tc' 0 = nth t tc 0 + cnt * count_occ Nat.eq_dec l t.
Proof.
  revert tc; induction l as [|t l IH]; intros tc Hr; cbn [mfold].
  - exists tc. split; [reflexivity|]. split; [reflexivity|]. intros; cbn; lia.
  - unfold idx_upd at 1. rewrite (proj2 (Nat.ltb_lt t (length tc))) by (apply Hr; left; reflexivity).
    cbn [bind]. destruct (IH (upd t (fun x => x + cnt) tc)) as (tc' & E & Hl & Hn).
    { intros u Hu. rewrite upd_length. apply Hr; right; exact Hu. }
    exists tc'. split; [exact E|]. rewrite upd_length in Hl. split; [exact Hl|].
    intros u. rewrite Hn, nth_upd by (apply Hr; left; reflexivity).
    destruct (Nat.eqb_spec u t) as [->|Hne].
    + rewrite count_occ_cons_eq by reflexivity. lia.
    + rewrite count_occ_cons_neq by congruence. lia.
Qed.

Lemma count_loop :
  seqs_in_range ts ->
  forall spans counts tc sc,
  (forall sp, In sp spans -> span_good ts sp) ->
  length tc = ntokens ts -> length sc = length (sequences ts) ->
  exists tc' sc',
    mfold (count_span ts) (combine spans counts) (tc, sc) = Ret (tc', sc') /\
    length tc' = length tc /\ length sc' = length sc /\
    (forall t, nth t tc' 0 = nth t tc 0 +
       sum (map (fun p : span * nat =>
                   snd p * count_occ Nat.eq_dec
                     (match piece_of (fst p) with Some q => piece_tokens ts q | None => [] end) t)
                (combine spans counts))) /\
    (forall q, nth q sc' 0 = nth q sc 0 +
       sum (map (fun p : span * nat =>
                   snd p * (match piece_of (fst p) with
                            | Some (PSeq q') => if Nat.eqb q q' then 1 else 0
                            | _ => 0 end))
                (combine spans counts))).
Proof.
  intros Hrange. induction spans as [|sp spans IH]; intros counts tc sc Hg Htc Hsc.
  - exists tc, sc. cbn. repeat split; auto.
  - destruct counts as [|cnt counts].
    { exists tc, sc. cbn. repeat split; auto. }
    cbn [combine mfold].
    destruct (Hg sp (or_introl eq_refl)) as (p & Hp & Hps & _).
    unfold count_span at 1. unfold piece_of in Hp |- *.
    destruct (sp_content sp) as [|t|q] eqn:Ec; [discriminate| |]; injection Hp as <-.
    + apply tok_range in Hps.
      unfold idx_upd at 1. rewrite (proj2 (Nat.ltb_lt t (length tc))) by lia. cbn [bind].
      destruct (IH counts (upd t (fun x => x + cnt) tc) sc) as (tc' & sc' & E & H1 & H2 & H3 & H4).
      { intros sp' H'; apply Hg; right; exact H'. }
      { rewrite upd_length; exact Htc. }
      { exact Hsc. }
      exists tc', sc'. split; [exact E|]. rewrite upd_length in H1. split; [exact H1|].
      split; [exact H2|]. split.
      * intros u. rewrite H3, nth_upd by lia. cbn [map sum fold_right fst snd].
        rewrite Ec. cbn [piece_tokens].
        destruct (Nat.eqb_spec u t) as [->|Hne].
        -- rewrite count_occ_cons_eq by reflexivity. cbn [count_occ]. unfold sum, piece_of. lia.
        -- rewrite count_occ_cons_neq by congruence. cbn [count_occ]. unfold sum, piece_of. lia.
      * intros u. rewrite H4. cbn [map sum fold_right fst snd]. rewrite Ec. unfold sum, piece_of. lia.
    + cbn in Hps. destruct (nth_error (sequences ts) q) as [sq|] eqn:Eq; [|discriminate].
      assert (Hq : q < length sc) by (rewrite Hsc; apply nth_error_Some; congruence).
      unfold idx_upd at 1. rewrite (proj2 (Nat.ltb_lt q (length sc))) by exact Hq. cbn [bind].
      unfold idx at 1. rewrite Eq; cbn [unwrap bind].
      destruct (count_loop_tok tc (seq_tokens sq) cnt) as (tc1 & E1 & Hl1 & Hn1).
      { intros t Ht. rewrite Htc. eapply Hrange; [|exact Ht]. eapply nth_error_In; exact Eq. }
      rewrite E1; cbn [bind].
      destruct (IH counts tc1 (upd q (fun x => x + cnt) sc)) as (tc' & sc' & E & H1 & H2 & H3 & H4).
      { intros sp' H'; apply Hg; right; exact H'. }
      { congruence. }
      { rewrite upd_length; exact Hsc. }
      exists tc', sc'. split; [exact E|]. rewrite upd_length in H2. split; [congruence|].
      split; [exact H2|]. split.
      * intros u. rewrite H3, Hn1. cbn [map sum fold_right fst snd]. rewrite Ec.
        cbn [piece_tokens]. rewrite Eq. unfold sum, piece_of. lia.
      * intros u. rewrite H4, nth_upd by exact Hq. cbn [map sum fold_right fst snd]. rewrite Ec.
        destruct (Nat.eqb_spec u q) as [->|Hne].
        -- unfold sum, piece_of. lia.
        -- unfold sum, piece_of. lia.
Qed.

(** Summing over spans weighted by their counts = summing over the back-trace. *)
Lemma weighted_sum (f : span -> nat) (spans : list span) il :
  (forall i, In i il -> i < length spans) ->
  forall counts, length counts = length spans ->
  sum (map (fun p : span * nat => snd p * f (fst p))
           (combine spans (fold_right (fun i v => upd i S v) counts il))) =
  sum (map (fun p : span * nat => snd p * f (fst p)) (combine spans counts)) +
  sum (map (fun i => match nth_error spans i with Some sp => f sp | None => 0 end) il).
Proof.
  intros Hr counts Hc. induction il as [|i il IH]; cbn [fold_right map].
  - cbn. lia.
  - assert (Hone : forall c i, length c = length spans -> i < length spans ->
      sum (map (fun p : span * nat => snd p * f (fst p)) (combine spans (upd i S c))) =
      sum (map (fun p : span * nat => snd p * f (fst p)) (combine spans c)) +
      match nth_error spans i with Some sp => f sp | None => 0 end).
    { clear. induction spans as [|sp spans IH]; intros [|x c] [|i] Hl Hi; cbn in *; try lia.
      unfold sum in IH. rewrite IH by lia. lia. }
    assert (Hlen : forall il, length (fold_right (fun i v => upd i S v) counts il) = length counts).
    { induction il0; cbn; [reflexivity|]. rewrite upd_length; assumption. }
    rewrite Hone; [|rewrite Hlen; exact Hc|apply Hr; left; reflexivity].
    rewrite IH by (intros; apply Hr; right; assumption).
    cbn. unfold sum. lia.
Qed.

Lemma weighted_zero (f : span -> nat) (spans : list span) n :
  sum (map (fun p : span * nat => snd p * f (fst p)) (combine spans (repeat 0 n))) = 0.
Proof.
  revert n; induction spans as [|sp spans IH]; intros [|n]; cbn; auto.
Qed.

Lemma process_slice_canonical : seqs_in_range ts -> forall bytes,
  exists ps cs, optimal ts ps bytes /\ longest_last ts ps /\
    forall s buffer, matches ts s ->
    exists s', process_slice tk bytes s buffer = Ret (s', cs) /\ counted ts ps bytes s s'.
Proof.
  intros Hrange bytes.
  destruct (scan_all bytes) as (j & cs & Hscan & Hlen & Hok).
  destruct (nth_error cs (length bytes)) as [c|] eqn:Ec; [|apply nth_error_None in Ec; lia].
  set (n := ntokens ts).
  destruct (back_trace_spec bytes cs Hok (length bytes) c (le_n _) Ec)
    as (il & ps & Hil & Hseg & Hcost & Hll & Hbt).
  assert (Hopt : optimal ts ps bytes).
  { rewrite firstn_all in Hseg. split; [exact Hseg|]. intros qs Hqs.
    destruct Hok as (_ & Hok). destruct (Hok _ _ Ec) as ((ps' & (_ & Hmin) & Hl) & _).
    rewrite firstn_all in Hmin. specialize (Hmin qs Hqs). lia. }
  (* the segmentation does not depend on the statistics: fix it by the scan *)
  exists ps, cs. split; [exact Hopt|]. split; [exact Hll|].
  intros s buffer (Hts & Htc & Hsc & Hpc).
  destruct (Hbt (length bytes) None (repeat 0 (length (tk_spans tk))) (pair_counts s))
    as (pairs' & Ebt & Hpl & Hadj); [lia|apply repeat_length|exact Hpc|discriminate|].
  set (counts := fold_right (fun i v => upd i S v) (repeat 0 (length (tk_spans tk))) il) in *.
  assert (Hcl : length counts = length (tk_spans tk)).
  { unfold counts. clear. induction il; cbn; [apply repeat_length|]. rewrite upd_length; assumption. }
  destruct (count_loop Hrange (tl (tk_spans tk)) (tl counts) (token_counts s) (seq_counts s))
    as (tc' & sc' & Ecl & Hl1 & Hl2 & Hn1 & Hn2).
  { intros sp Hsp. destruct (tk_spans tk) as [|s0 spans] eqn:Esp; [destruct Hsp|]. cbn in Hsp.
    apply In_nth_error in Hsp as (k & Hk).
    apply (tk_good _ _ Htk (S k) sp); [rewrite Esp; exact Hk|lia]. }
  { exact Htc. }
  { exact Hsc. }
  assert (Hir : forall i, In i il -> i < length (tk_spans tk)).
  { intros i Hi. apply In_nth_error in Hi as (k & Hk).
    destruct (Forall2_nth _ _ _ Hil k i Hk) as (p & _ & sp & Hsp & _).
    apply nth_error_Some; congruence. }
  (* dropping span 0, which contributes nothing *)
  assert (Htl : forall f : span -> nat, (forall sp, piece_of sp = None -> f sp = 0) ->
    sum (map (fun p : span * nat => snd p * f (fst p)) (combine (tl (tk_spans tk)) (tl counts)))
    = sum (map (fun p => match nth_error (tk_spans tk) p with Some sp => f sp | None => 0 end) il)).
  { intros f Hf.
    pose proof (weighted_sum f (tk_spans tk) il Hir (repeat 0 (length (tk_spans tk)))
                  (repeat_length _ _)) as Hw.
    rewrite weighted_zero in Hw. cbn in Hw. rewrite <- Hw. fold counts.
    assert (H0 : nth_error counts 0 = Some 0 \/ tk_spans tk = []).
    { destruct (tk_spans tk) as [|s0 spans] eqn:Esp; [right; reflexivity|left].
      unfold counts. clear - Hil. induction Hil as [|i p il ps (sp & _ & Hpos & _) _ IH]; [reflexivity|].
      cbn [fold_right]. rewrite nth_error_upd. destruct i; [lia|]. exact IH. }
    clear - H0 Hcl. clearbody counts.
    destruct (tk_spans tk) as [|s0 spans]; [reflexivity|].
    destruct H0 as [H0|H0]; [|discriminate].
    destruct counts as [|c0 counts']; [discriminate|]. injection H0 as ->. reflexivity. }
  assert (Hsum : forall g : piece -> nat,
    sum (map (fun i => match nth_error (tk_spans tk) i with
                       | Some sp => match piece_of sp with Some p => g p | None => 0 end
                       | None => 0 end) il) = sum (map g ps)).
  { intros g. clear - Hil. induction Hil as [|i p il ps (sp & Hsp & _ & Hp) _ IH]; [reflexivity|].
    cbn. rewrite Hsp, Hp. unfold sum in IH. rewrite IH; reflexivity. }
  eexists. split.
  - unfold process_slice. cbn [firstn app]. rewrite Hscan. cbn [bind].
    unfold update_stats.
    replace (length cs - 1) with (length bytes) by lia. rewrite Ec. cbn [unwrap bind].
    rewrite Hts. rewrite Ebt. cbn [bind]. rewrite Ecl. cbn [bind]. reflexivity.
  - constructor; cbn.
    + repeat split; cbn; congruence.
    + lia.
    + reflexivity.
    + reflexivity.
    + intros t. rewrite Hn1. f_equal.
      rewrite (Htl (fun sp => count_occ Nat.eq_dec
                 match piece_of sp with Some q => piece_tokens ts q | None => [] end t))
        by (intros sp ->; reflexivity).
      transitivity (sum (map (fun p => count_occ Nat.eq_dec (piece_tokens ts p) t) ps)).
      * rewrite <- Hsum. f_equal. apply map_ext. intros i.
        destruct (nth_error (tk_spans tk) i) as [sp|]; [|reflexivity].
        destruct (piece_of sp); reflexivity.
      * clear. unfold stream. induction ps as [|p ps IH]; cbn; [reflexivity|].
        rewrite count_occ_app. unfold sum in IH. rewrite IH; reflexivity.
    + intros q. rewrite Hn2. f_equal.
      rewrite (Htl (fun sp => match piece_of sp with
                 | Some (PSeq q') => if Nat.eqb q q' then 1 else 0 | _ => 0 end))
        by (intros sp ->; reflexivity).
      transitivity (sum (map (fun p => match p with PSeq q' => if Nat.eqb q q' then 1 else 0
                                       | PTok _ => 0 end) ps)).
      * rewrite <- Hsum. apply f_equal, map_ext. intros i.
        destruct (nth_error (tk_spans tk) i) as [sp|]; [|reflexivity].
        destruct (piece_of sp) as [[]|]; reflexivity.
      * clear. induction ps as [|p ps IH]; cbn; [reflexivity|].
        unfold sum in IH. rewrite IH. destruct p as [t|q']; [reflexivity|].
        destruct (piece_eq_dec (PSeq q') (PSeq q)) as [E|E]; destruct (Nat.eqb_spec q q') as [E'|E'];
          try reflexivity; congruence.
    + intros i j' Hi Hj. rewrite (Hadj i j' Hi Hj). cbn. rewrite app_nil_r. reflexivity.
Qed.

Lemma process_slice_correct : seqs_in_range ts -> forall bytes,
  exists ps cs, optimal ts ps bytes /\
    forall s buffer, matches ts s ->
    exists s', process_slice tk bytes s buffer = Ret (s', cs) /\ counted ts ps bytes s s'.
Proof.
  intros Hr bytes. destruct (process_slice_canonical Hr bytes) as (ps & cs & Ho & _ & H).
  exists ps, cs. auto.
Qed.
End Scan.
