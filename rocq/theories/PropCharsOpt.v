(** * The optimizer of src/chars: codes of characters, added strings (properties C73 to C75). *)
From Verif Require Import Base BaseLemmas Utf8 ProcessingModel PropProcessing CountModel PropCount.
From Verif Require Import OptBytesProof.
From Verif Require Import CharsModel CharsOptProof PropCharsTok.

(** ** The set of characters *)

Lemma add_encs_eq h encs : forall ts,
  fold_left (fun ts e => add_encoding ts (fst e) (h :: snd e)) encs ts =
  mkCset (c_tokens ts) (rev (map (fun e => (fst e, h :: snd e)) encs) ++ c_enc ts) (c_by_str ts).
Proof.
  induction encs as [|e encs IH]; intros ts; cbn [fold_left map rev]; [destruct ts; reflexivity|].
  rewrite IH. cbn [add_encoding c_tokens c_enc c_by_str]. unfold sinsert. rewrite <- app_assoc. reflexivity.
Qed.

(** What [optimize_chars] has built after the intervals [gd] with the splits [done]. *)
Record chars_made (n_ext : nat) (done : list csplit) (gd : list chtable) (ts : cset) : Prop := {
  cm_tokens : c_tokens ts = map (fun i => CExt (i mod 256)) (seq 0 n_ext) ++ map (fun sp => CChar (sp_top sp)) done;
  cm_keys : Permutation (map fst (c_enc ts)) (map fst (concat gd));
  cm_codes : forall c e, In (c, e) (c_enc ts) -> exists i sp ds, nth_error done i = Some sp /\
     e = (n_ext + i) :: ds /\ (forall d, In d ds -> d < n_ext) /\ (ds = [] -> c = sp_top sp);
  cm_distinct : NoDup (map snd (c_enc ts));
  cm_tops : forall i sp, nth_error done i = Some sp -> In (sp_top sp, [n_ext + i]) (c_enc ts)
}.

Lemma optimize_chars_ok counts n_char n_ext : 1 <= n_char -> 1 <= n_ext -> increasing counts -> positive counts ->
  Forall utf8_char (map fst counts) ->
  exists ts splits groups, optimize_chars counts n_char n_ext = Ret ts /\ built ts /\
    concat groups = counts /\ length splits = Nat.min n_char (length counts) /\
    chars_made n_ext splits groups ts.
Proof.
  intros Hnc Hne Hs Hp Hch. unfold optimize_chars.
  destruct (optimize_splits_ok counts n_char Hnc Hs) as (splits & groups & E & Hc & Hlen & HF).
  rewrite E. cbn [bind].
  set (body := fun (ts : cset) (e : nat * csplit) =>
           let '(i, sp) := e in
           let '(ts, _) := add_char_token ts (sp_top sp) in
           sub <- sub_table counts splits i sp ;;
           match sub with
           | None => Ret ts
           | Some sub =>
               encs <- optimize_ext_encoding (length sub) sub n_ext ;;
               Ret (fold_left (fun ts e => add_encoding ts (fst e) ((n_ext + i) :: snd e)) encs ts)
           end).
  assert (G : forall todo done gd gt ts, splits = done ++ todo -> groups = gd ++ gt -> length done = length gd ->
     built ts -> chars_made n_ext done gd ts ->
     exists r, mfold body (enum_from (length done) todo) ts = Ret r /\ built r /\ chars_made n_ext splits groups r).
  { induction todo as [|sp todo IH]; intros done gd gt ts Es Eg Hl Hb Hm.
    - cbn. exists ts. split; [reflexivity|]. split; [exact Hb|].
      assert (gt = []).
      { apply (f_equal (@length _)) in Eg, Es. rewrite app_length in *. cbn in Es.
        pose proof (Forall2_length _ _ _ HF). destruct gt; [reflexivity|cbn in *; lia]. }
      subst gt. rewrite app_nil_r in Eg, Es. subst. exact Hm.
    - destruct gt as [|g gt].
      { exfalso. apply (f_equal (@length _)) in Eg, Es. rewrite app_length in *. cbn in *.
        pose proof (Forall2_length _ _ _ HF). lia. }
      cbn [enum_from mfold]. unfold body at 1.
      destruct (add_char_token ts (sp_top sp)) as (ts1, top_id) eqn:Eadd.
      destruct (sub_table_ok counts splits groups (length done) sp g Hs Hp Hc HF) as (g' & Hr & Est).
      { rewrite Es, nth_error_app2, Nat.sub_diag by lia. reflexivity. }
      { rewrite Eg, Hl, nth_error_app2, Nat.sub_diag by lia. reflexivity. }
      rewrite Est. cbn [bind].
      assert (Hgin : increasing g /\ positive g /\ incl g counts).
      { assert (Hi : incl g counts).
        { intros x Hx. rewrite <- Hc, Eg, concat_app. apply in_app_iff; right. cbn. apply in_app_iff; left; exact Hx. }
        split; [|split; [intros x Hx; apply Hp, Hi, Hx|exact Hi]].
        apply (increasing_group groups); [rewrite Hc; exact Hs|]. rewrite Eg. apply in_app_iff; right; left; reflexivity. }
      destruct Hgin as (Hgi & Hgp & Hgc).
      assert (Hg' : exists sub_encs, match g' with [] => sub_encs = [] | _ =>
                 optimize_ext_encoding (length g') g' n_ext = Ret sub_encs end /\ good_codes n_ext (map fst g') sub_encs).
      { destruct g' as [|x g'].
        - exists []. split; [reflexivity|]. split; cbn; try contradiction; constructor.
        - apply ext_encoding_ok; [exact Hne|apply le_n|eapply removed_increasing; eauto|eapply removed_positive; eauto]. }
      destruct Hg' as (sub_encs & Hsub & [G1 G2 G3 G4]).
      set (h := n_ext + length done).
      set (ts2 := mkCset (c_tokens ts1) (rev (map (fun e => (fst e, h :: snd e)) sub_encs) ++ c_enc ts1) (c_by_str ts1)).
      assert (Eb : match (match g' with [] => None | _ => Some g' end) with
                   | None => Ret ts1
                   | Some sub => encs <- optimize_ext_encoding (length sub) sub n_ext ;;
                       Ret (fold_left (fun ts e => add_encoding ts (fst e) (n_ext + length done :: snd e)) encs ts1)
                   end = Ret ts2).
      { fold h. destruct g' as [|x g'].
        - subst sub_encs. unfold ts2. cbn. destruct ts1; reflexivity.
        - rewrite Hsub. cbn [bind]. rewrite add_encs_eq. reflexivity. }
      match goal with |- context [bind ?m (fun s' => mfold body _ s')] => replace m with (Ret ts2) by (symmetry; exact Eb) end.
      cbn [bind].
      destruct (removed_perm _ _ _ Hr) as (Hperm & _).
      assert (Hsubch : forall c, In c (map fst sub_encs) -> In c (map fst g)).
      { intros c Hi. eapply Permutation_in; [symmetry; exact Hperm|]. right. eapply Permutation_in; [exact G1|exact Hi]. }
      assert (Hchg : forall c, In c (map fst g) -> utf8_char c).
      { intros c Hi. rewrite Forall_forall in Hch. apply Hch. apply in_map_iff in Hi as (x & <- & Hx). apply in_map. auto. }
      assert (Htop : In (sp_top sp) (map fst g)).
      { eapply Permutation_in; [symmetry; exact Hperm|left; reflexivity]. }
      replace (S (length done)) with (length (done ++ [sp])) by (rewrite app_length; cbn; lia).
      apply (IH (done ++ [sp]) (gd ++ [g]) gt ts2).
      + rewrite <- app_assoc. exact Es.
      + rewrite <- app_assoc. exact Eg.
      + rewrite !app_length. cbn. lia.
      + assert (Hb1 : built ts1) by (replace ts1 with (fst (add_char_token ts (sp_top sp))) by (rewrite Eadd; reflexivity); constructor; auto).
        unfold ts2. rewrite <- add_encs_eq.
        assert (Hall : forall c, In c (map fst sub_encs) -> utf8_char c) by auto.
        clear -Hb1 Hall. revert ts1 Hb1. induction sub_encs as [|e l IHl]; intros ts1 Hb1; cbn [fold_left]; [exact Hb1|].
        apply IHl; [intros c Hi; apply Hall; right; exact Hi|]. constructor; [exact Hb1|]. apply Hall. left; reflexivity.
      + destruct Hm as [M1 M2 M3 M4 M5]. unfold add_char_token in Eadd. injection Eadd as <- _.
        assert (Elen : length (c_tokens ts) = h).
        { rewrite M1, app_length, !map_length, seq_length. reflexivity. }
        unfold ts2. rewrite ?Elen. cbn [add_encoding c_tokens c_enc c_by_str] in *. unfold sinsert in *.
        split; cbn [c_tokens c_enc c_by_str].
        * rewrite M1, <- app_assoc, map_app. reflexivity.
        * rewrite concat_app, map_app. cbn [concat]. rewrite app_nil_r, !map_app. cbn [map fst].
          rewrite map_rev, map_map. cbn [fst].
          rewrite <- (Permutation_rev (map (fun x => fst x) sub_encs)). rewrite Hperm, M2, G1.
          rewrite <- Permutation_middle. rewrite (Permutation_app_comm (map fst (concat gd))). reflexivity.
        * intros c e Hi. apply in_app_iff in Hi as [Hi|[Hi|Hi]].
          -- rewrite <- in_rev in Hi. apply in_map_iff in Hi as (x & Ex & Hx). injection Ex as <- <-.
             exists (length done), sp, (snd x). split; [rewrite nth_error_app2, Nat.sub_diag by lia; reflexivity|].
             split; [reflexivity|]. split; [intros d Hd; eapply G3; eauto|]. intros E0. exfalso. exact (G2 x Hx E0).
          -- injection Hi as <- <-. exists (length done), sp, []. split; [rewrite nth_error_app2, Nat.sub_diag by lia; reflexivity|].
             split; [reflexivity|]. split; [intros d []|reflexivity].
          -- destruct (M3 c e Hi) as (i & sp' & ds & H1 & H2). exists i, sp', ds. split; [|exact H2].
             rewrite nth_error_app1; [exact H1|]. apply nth_error_Some; congruence.
        * rewrite map_app. cbn [map snd]. rewrite map_rev, map_map. cbn [snd].
          apply NoDup_app_intro.
          -- apply NoDup_rev. rewrite <- (map_map snd (cons h)). apply NoDup_map_inj; [congruence|exact G4].
          -- constructor; [|exact M4]. intros Hi. apply in_map_iff in Hi as ((c, e) & Ee & Hi). cbn in Ee. subst e.
             destruct (M3 _ _ Hi) as (i & sp' & ds & H1 & H2 & _). injection H2 as H2 _.
             assert (i < length done) by (apply nth_error_Some; congruence). unfold h in H2. lia.
          -- intros e Hi Hj. rewrite <- in_rev in Hi. apply in_map_iff in Hi as (x & Ex & Hx).
             destruct Hj as [<-|Hj]; [injection Ex as Ex; exact (G2 x Hx Ex)|].
             apply in_map_iff in Hj as ((c, e') & Ee & Hj). cbn in Ee. subst e'.
             destruct (M3 _ _ Hj) as (i & sp' & ds & H1 & H2 & _). rewrite H2 in Ex. injection Ex as Ex _.
             assert (i < length done) by (apply nth_error_Some; congruence). unfold h in Ex. lia.
        * intros i sp' Ei. apply in_app_iff. right. destruct (Nat.lt_ge_cases i (length done)) as [Hi|Hi].
          -- rewrite nth_error_app1 in Ei by exact Hi. right. exact (M5 i sp' Ei).
          -- rewrite nth_error_app2 in Ei by exact Hi. destruct (i - length done) as [|k] eqn:Ek; [|destruct k; discriminate].
             injection Ei as <-. left. unfold h. replace i with (length done) by lia. reflexivity. }
  destruct (G splits [] [] groups (cset_new n_ext)) as (r & Er & Hb & Hm); auto.
  - constructor.
  - split; cbn.
    + rewrite app_nil_r. reflexivity.
    + constructor.
    + intros c e [].
    + constructor.
    + intros [|i] sp; discriminate.
  - exists r, splits, groups. split; [exact Er|]. split; [exact Hb|]. split; [exact Hc|]. split; [|exact Hm].
    rewrite (Forall2_length _ _ _ HF). exact Hlen.
Qed.

(** ** The table of characters *)
Lemma sum_cons a l : sum (a :: l) = a + sum l.
Proof. reflexivity. Qed.

Lemma bump_in t c x : increasing t -> In x (map fst (bump t c)) -> x = c \/ In x (map fst t).
Proof.
  intros _. induction t as [|(d, n) t IH]; cbn [bump map fst In]; [intuition congruence|].
  destruct (N.compare _ _); cbn [map fst In]; intuition congruence.
Qed.

Lemma bump_ok t c : utf8_char c -> Forall utf8_char (map fst t) -> increasing t -> positive t ->
  Forall utf8_char (map fst (bump t c)) /\ increasing (bump t c) /\ positive (bump t c) /\
  forall f, sum (map (fun p => f (fst p) * snd p) (bump t c)) = f c + sum (map (fun p => f (fst p) * snd p) t).
Proof.
  intros Hc Hu Hi Hp. induction t as [|(d, n) t IH]; cbn [bump].
  - split; [constructor; [exact Hc|constructor]|]. split; [repeat constructor|]. split; [intros x [<-|[]]; cbn; lia|]. intros f; cbn; lia.
  - cbn [map fst] in Hu. inversion Hu as [|? ? Hd Hu']; subst. inversion Hi as [|? ? Hi' Hx]; subst.
    destruct (N.compare_spec (code_point c) (code_point d)) as [E|L|L].
    + apply code_point_inj in E; [subst d|exact Hc|exact Hd]. split; [exact Hu|]. split; [|split].
      * constructor; [exact Hi'|]. exact Hx.
      * intros x [<-|Hx']; [cbn; lia|apply Hp; right; exact Hx'].
      * intros f. cbn. lia.
    + split; [constructor; [exact Hc|exact Hu]|]. split; [|split].
      * constructor; [exact Hi|]. constructor; [exact L|]. eapply Forall_impl; [|exact Hx]. cbn. intros y Hy. lia.
      * intros x [<-|Hx']; [cbn; lia|apply Hp; exact Hx'].
      * intros f. cbn. lia.
    + destruct IH as (A & B & C & D); [exact Hu'|exact Hi'|intros x Hx'; apply Hp; right; exact Hx'|].
      split; [constructor; assumption|]. split; [|split].
      * constructor; [exact B|]. apply Forall_forall. intros y Hy.
        destruct (bump_in t c (fst y) Hi' (in_map fst _ _ Hy)) as [->|Hy']; [exact L|].
        apply in_map_iff in Hy' as (z & Ez & Hz). rewrite Forall_forall in Hx. specialize (Hx z Hz). cbn in *. rewrite <- Ez. exact Hx.
      * intros x [<-|Hx']; [apply (Hp (d, n)); left; reflexivity|auto].
      * intros f. cbn [map]. rewrite !sum_cons, D. lia.
Qed.

Lemma count_text_ok l : Forall utf8_char l -> forall t, Forall utf8_char (map fst t) -> increasing t -> positive t ->
  let r := fold_left bump l t in
  Forall utf8_char (map fst r) /\ increasing r /\ positive r /\
  forall f, sum (map (fun p => f (fst p) * snd p) r) = sum (map f l) + sum (map (fun p => f (fst p) * snd p) t).
Proof.
  induction 1 as [|c l Hc _ IH]; intros t Hu Hi Hp; cbn [fold_left]; [cbv zeta; repeat split; auto|].
  destruct (bump_ok t c Hc Hu Hi Hp) as (A & B & C & D). destruct (IH _ A B C) as (A' & B' & C' & D').
  split; [exact A'|]. split; [exact B'|]. split; [exact C'|]. intros f. rewrite D', D. cbn [map]. rewrite !sum_cons. lia.
Qed.

(** All characters of the data. *)
Definition data_chars (samples : list bstr) : list bstr := flat_map chars samples.

Lemma data_chars_ok samples : Forall utf8 samples -> Forall utf8_char (data_chars samples).
Proof.
  intros H. apply Forall_forall. intros c Hc. apply in_flat_map in Hc as (s & Hs & Hc). rewrite Forall_forall in H.
  destruct (chars_spec s (H s Hs)) as (H1 & _). rewrite Forall_forall in H1. auto.
Qed.

Lemma count_all_ok samples : Forall utf8 samples ->
  Forall utf8_char (map fst (count_all samples)) /\ increasing (count_all samples) /\ positive (count_all samples) /\
  (forall f, sum (map (fun p => f (fst p) * snd p) (count_all samples)) = sum (map f (data_chars samples))) /\
  (forall c, In c (map fst (count_all samples)) <-> In c (data_chars samples)).
Proof.
  intros H. pose proof (data_chars_ok samples H) as Hd.
  destruct (count_text_ok (data_chars samples) Hd []) as (A & B & C & D); [constructor|constructor|intros x []|].
  fold (data_chars samples) in *. unfold count_all. fold (data_chars samples).
  split; [exact A|]. split; [exact B|]. split; [exact C|].
  assert (D' : forall f, sum (map (fun p => f (fst p) * snd p) (fold_left bump (data_chars samples) [])) = sum (map f (data_chars samples))).
  { intros f. rewrite D. cbn. lia. }
  split; [exact D'|]. intros c. clear D.
  assert (P : forall (T : Type) (g : T -> nat) l, 0 < sum (map g l) <-> exists x, In x l /\ 0 < g x).
  { clear. intros T g l. induction l as [|x l IH]; cbn [map sum fold_right].
    - split; [lia|intros (x & [] & _)].
    - unfold sum in IH. split.
      + intros H. destruct (g x) as [|k] eqn:E.
        * cbn in H. apply IH in H as (y & Hy & H). exists y. split; [right; exact Hy|exact H].
        * exists x. split; [left; reflexivity|lia].
      + intros (y & [->|Hy] & H); [lia|]. assert (0 < fold_right Nat.add 0 (map g l)) by (apply IH; eauto). lia. }
  specialize (D' (fun x => if bstr_eqb x c then 1 else 0)). cbv beta in D'. split; intros Hi.
  - apply in_map_iff in Hi as (p & <- & Hp).
    assert (Hpos : 0 < sum (map (fun x => if bstr_eqb x (fst p) then 1 else 0) (data_chars samples))).
    { rewrite <- D'. apply P. exists p. split; [exact Hp|]. rewrite bstr_eqb_refl. specialize (C p Hp). lia. }
    apply P in Hpos as (x & Hx & H0). destruct (bstr_eqb_spec x (fst p)) as [<-|]; [exact Hx|lia].
  - assert (Hpos : 0 < sum (map (fun p => (if bstr_eqb (fst p) c then 1 else 0) * snd p) (fold_left bump (data_chars samples) []))).
    { rewrite D'. apply P. exists c. split; [exact Hi|]. rewrite bstr_eqb_refl. lia. }
    apply P in Hpos as (x & Hx & H0). destruct (bstr_eqb_spec (fst x) c) as [<-|]; [apply in_map; exact Hx|lia].
Qed.

(** ** Specification of the codes *)

(** The ids that are written for a list of pieces. *)
Inductive emits (ts : cset) : list piece -> list nat -> Prop :=
| emits_nil : emits ts [] []
| emits_tok i ps ids : emits ts ps ids -> emits ts (PTok i :: ps) (i :: ids)
| emits_lit c e ps ids : char_encoding ts c = Ret e -> emits ts ps ids -> emits ts (PLit c :: ps) (e ++ ids).

(** A set with strings added to it. *)
Inductive with_strings (ts : cset) : cset -> Prop :=
| ws_same : with_strings ts ts
| ws_add ts' s : with_strings ts ts' -> utf8 s -> with_strings ts (fst (add_string ts' s)).

(** The length of the code of a character; the number of tokens of the data
    spelled character by character. *)
Definition code_len (ts : cset) (c : bstr) : nat :=
  match char_encoding ts c with Ret e => length e | _ => 0 end.
Definition spelled (ts : cset) (samples : list bstr) : nat := sum (map (code_len ts) (data_chars samples)).

(** ** Facts *)
Lemma sget_in {V} (m : smap V) k v : sget m k = Some v -> In (k, v) m.
Proof.
  induction m as [|(k', v') m IH]; cbn; [discriminate|]. destruct (bstr_eqb_spec k k') as [->|].
  - intros E. injection E as ->. left; reflexivity.
  - intros H. right. auto.
Qed.
Lemma in_sget {V} (m : smap V) k : In k (map fst m) -> exists v, sget m k = Some v.
Proof.
  induction m as [|(k', v') m IH]; cbn; [intros []|]. destruct (bstr_eqb_spec k k') as [->|Hne]; [eauto|].
  intros [E|H]; [congruence|auto].
Qed.

Lemma made_known n_ext splits groups ts c : chars_made n_ext splits groups ts -> In c (map fst (concat groups)) ->
  exists e, sget (c_enc ts) c = Some e.
Proof. intros [_ M2 _ _] H. apply in_sget. eapply Permutation_in; [symmetry; exact M2|exact H]. Qed.

Lemma table_cost_ok counts ts : (forall c, In c (map fst counts) -> exists e, sget (c_enc ts) c = Some e) ->
  table_cost counts ts = Ret (sum (map (fun p => code_len ts (fst p) * snd p) counts)).
Proof.
  intros H. unfold table_cost.
  assert (G : forall l k, (forall c, In c (map fst l) -> exists e, sget (c_enc ts) c = Some e) ->
    mfold (fun total p => e <- char_encoding ts (fst p) ;; Ret (total + length e * snd p)) l k
    = Ret (k + sum (map (fun p => code_len ts (fst p) * snd p) l))).
  { induction l as [|p l IH]; intros k Hl; cbn [mfold map]; [rewrite Nat.add_0_r; reflexivity|].
    rewrite sum_cons. destruct (Hl (fst p) (or_introl eq_refl)) as (e & E).
    assert (Ec : char_encoding ts (fst p) = Ret e) by (unfold char_encoding; rewrite E; reflexivity).
    rewrite Ec. cbn [bind]. rewrite IH by (intros c Hc; apply Hl; right; exact Hc). f_equal.
    unfold code_len at 2. rewrite Ec. lia. }
  rewrite G by exact H. reflexivity.
Qed.

Lemma ext_fold counts n (l : list nat) :
  (forall k, In k l -> k <= n /\ exists ts tot, optimize_chars counts (n - k) k = Ret ts /\ table_cost counts ts = Ret tot) ->
  forall best, exists r, mfold (ext_round counts n) l best = Ret r /\
    (forall ts tot, r = Some (ts, tot) -> best = Some (ts, tot) \/
       exists k, In k l /\ optimize_chars counts (n - k) k = Ret ts /\ table_cost counts ts = Ret tot) /\
    (forall ts tot, r = Some (ts, tot) ->
       (forall k ts' tot', In k l -> optimize_chars counts (n - k) k = Ret ts' -> table_cost counts ts' = Ret tot' -> tot <= tot') /\
       (forall ts0 tot0, best = Some (ts0, tot0) -> tot <= tot0)) /\
    (r = None -> best = None /\ l = []).
Proof.
  induction l as [|k l IH]; intros Hl best.
  - exists best. split; [reflexivity|]. split; [auto|]. split; [|auto]. intros ts tot ->. split; [intros k ? ? []|].
    intros ts0 tot0 E. injection E as -> ->. lia.
  - cbn [mfold]. destruct (Hl k (or_introl eq_refl)) as (Hk & ts & tot & E1 & E2).
    unfold ext_round at 1. rewrite checked_sub_le by exact Hk. cbn [bind]. rewrite E1. cbn [bind]. rewrite E2. cbn [bind].
    set (best' := match best with None => Some (ts, tot) | Some (_, b) => if tot <? b then Some (ts, tot) else best end).
    assert (Eb : match best with
       | None => Ret (Some (ts, tot))
       | Some (_, b) => if tot <? b then Ret (Some (ts, tot)) else Ret best
       end = Ret best').
    { unfold best'. destruct best as [[b0 b]|]; [destruct (tot <? b)|]; reflexivity. }
    rewrite Eb. cbn [bind].
    destruct (IH (fun k' Hk' => Hl k' (or_intror Hk')) best') as (r & E & A & B & C).
    assert (P1 : forall t x, best' = Some (t, x) -> best = Some (t, x) \/ (t = ts /\ x = tot)).
    { unfold best'. intros t x. destruct best as [[b0 b]|]; [destruct (tot <? b)|]; intros E0; try (injection E0 as <- <-); auto. }
    assert (P2 : exists t x, best' = Some (t, x) /\ x <= tot /\ forall t0 x0, best = Some (t0, x0) -> x <= x0).
    { unfold best'. destruct best as [[b0 b]|]; [destruct (Nat.ltb_spec tot b)|].
      - exists ts, tot. split; [reflexivity|]. split; [lia|]. intros t0 x0 E0. injection E0 as <- <-. lia.
      - exists b0, b. split; [reflexivity|]. split; [lia|]. intros t0 x0 E0. injection E0 as <- <-. lia.
      - exists ts, tot. split; [reflexivity|]. split; [lia|]. discriminate. }
    destruct P2 as (t & x & Ebx & Hx & Hx0).
    exists r. split; [exact E|]. split; [|split].
    + intros t' x' Hr. destruct (A _ _ Hr) as [H|(j & Hj & H)].
      * destruct (P1 _ _ H) as [H'|(-> & ->)]; [left; exact H'|]. right. exists k. split; [left; reflexivity|auto].
      * right. exists j. split; [right; exact Hj|exact H].
    + intros t' x' Hr. destruct (B _ _ Hr) as (B1 & B2). specialize (B2 _ _ Ebx). split.
      * intros j ts' tot' [<-|Hj] H1 H2; [|eapply B1; eauto]. assert (ts' = ts) by congruence. subst ts'.
        assert (tot' = tot) by congruence. subst tot'. lia.
      * intros t0 x0 H0. specialize (Hx0 _ _ H0). lia.
    + intros Hr. destruct (C Hr) as (C1 & _). congruence.
Qed.

Lemma by_ext_ok samples n : Forall utf8 samples -> 3 <= n ->
  exists ts n_ext splits groups, optimize_chars_by_ext (count_all samples) n = Ret ts /\
    2 <= n_ext <= Nat.min (n - 1) 8 /\ optimize_chars (count_all samples) (n - n_ext) n_ext = Ret ts /\
    built ts /\ concat groups = count_all samples /\ length splits = Nat.min (n - n_ext) (length (count_all samples)) /\
    chars_made n_ext splits groups ts /\
    forall k ts', 2 <= k <= Nat.min (n - 1) 8 -> optimize_chars (count_all samples) (n - k) k = Ret ts' ->
      spelled ts samples <= spelled ts' samples.
Proof.
  intros Hu Hn. destruct (count_all_ok samples Hu) as (A & B & C & D & _).
  unfold optimize_chars_by_ext. rewrite checked_sub_le by lia. cbn [bind].
  assert (Hk : forall k, 2 <= k <= Nat.min (n - 1) 8 -> exists ts splits groups, optimize_chars (count_all samples) (n - k) k = Ret ts /\
     built ts /\ concat groups = count_all samples /\ length splits = Nat.min (n - k) (length (count_all samples)) /\
     chars_made k splits groups ts /\ table_cost (count_all samples) ts = Ret (spelled ts samples)).
  { intros k Hk. destruct (optimize_chars_ok (count_all samples) (n - k) k) as (ts & splits & groups & E & Hb & Hc & Hlen & Hm); try assumption; try lia.
    exists ts, splits, groups. split; [exact E|]. split; [exact Hb|]. split; [exact Hc|]. split; [exact Hlen|]. split; [exact Hm|].
    rewrite table_cost_ok; [rewrite D; reflexivity|]. intros c Hi. eapply made_known; [exact Hm|]. rewrite Hc. exact Hi. }
  destruct (ext_fold (count_all samples) n (seq 2 (Nat.min (n - 1) 8 - 1))) with (best := @None (cset * nat)) as (r & E & F1 & F2 & F3).
  { intros k Hi. apply in_seq in Hi. split; [lia|]. destruct (Hk k) as (ts & splits & groups & E & _ & _ & _ & _ & Et); [lia|]. eauto. }
  rewrite E. cbn [bind]. destruct r as [(ts, tot)|].
  2:{ destruct (F3 eq_refl) as (_ & Hnil). apply (f_equal (@length _)) in Hnil. rewrite seq_length in Hnil. cbn [length] in Hnil. lia. }
  cbn [unwrap bind]. destruct (F1 _ _ eq_refl) as [H|(k & Hi & H1 & H2)]; [discriminate|]. apply in_seq in Hi.
  destruct (Hk k) as (ts0 & splits & groups & E0 & Hb & Hc & Hlen & Hm & Et); [lia|].
  assert (ts0 = ts) by congruence. subst ts0. exists ts, k, splits, groups.
  split; [reflexivity|]. split; [lia|]. split; [exact E0|]. split; [exact Hb|]. split; [exact Hc|]. split; [exact Hlen|]. split; [exact Hm|].
  intros j ts' Hj E'. destruct (Hk j Hj) as (ts'' & _ & _ & E'' & _ & _ & _ & _ & Et').
  assert (ts'' = ts') by congruence. subst ts''. assert (tot = spelled ts samples) by congruence. subst tot.
  destruct (F2 _ _ eq_refl) as (F & _). apply (F j ts'); [apply in_seq; lia|exact E'|exact Et'].
Qed.

(** C74.  The choice of the character tokens panics for fewer than three
    tokens, whatever the data.  Otherwise it returns a set of at most [n]
    tokens: between 2 and 8 extension tokens, and one token for each character
    of the data or as many as are left; every character of the data has a
    code; and no other number of extension tokens spells the data with fewer
    tokens. *)
Theorem C74_number_of_extension_tokens : forall samples n, Forall utf8 samples ->
  (n < 3 -> optimize_chars_by_ext (count_all samples) n = Panic) /\
  (3 <= n -> exists ts n_ext, optimize_chars_by_ext (count_all samples) n = Ret ts /\
     2 <= n_ext <= Nat.min (n - 1) 8 /\ optimize_chars (count_all samples) (n - n_ext) n_ext = Ret ts /\
     length (c_tokens ts) <= n /\
     (forall i, i < n_ext <-> exists d, nth_error (c_tokens ts) i = Some (CExt d)) /\
     (forall l, NoDup l -> (forall c, In c l <-> In c (data_chars samples)) ->
        length (c_tokens ts) = n_ext + Nat.min (n - n_ext) (length l)) /\
     (forall c, In c (data_chars samples) -> exists e, char_encoding ts c = Ret e /\ e <> []) /\
     (forall k ts', 2 <= k <= Nat.min (n - 1) 8 -> optimize_chars (count_all samples) (n - k) k = Ret ts' ->
        spelled ts samples <= spelled ts' samples)).
Proof.
  intros samples n Hu. split.
  - intros Hn. unfold optimize_chars_by_ext. destruct n as [|[|[|n]]]; [reflexivity|reflexivity|reflexivity|lia].
  - intros Hn. destruct (by_ext_ok samples n Hu Hn) as (ts & k & splits & groups & E & Hk & Eo & Hb & Hc & Hlen & Hm & Hmin).
    destruct (count_all_ok samples Hu) as (A & B & C & _ & Hin). pose proof Hm as [M1 M2 M3 M4 M5].
    assert (Hlt : length (c_tokens ts) = k + length splits) by (rewrite M1, app_length, !map_length, seq_length; reflexivity).
    exists ts, k. split; [exact E|]. split; [exact Hk|]. split; [exact Eo|]. split; [lia|]. split; [|split; [|split]].
    + intros i. rewrite M1. split.
      * intros Hi. rewrite nth_error_app1 by (rewrite map_length, seq_length; exact Hi).
        destruct (nth_error (map (fun i => CExt (i mod 256)) (seq 0 k)) i) as [t|] eqn:Et.
        -- apply nth_error_In, in_map_iff in Et as (j & <- & _). eauto.
        -- apply nth_error_None in Et. rewrite map_length, seq_length in Et. lia.
      * intros (d & Ed). destruct (Nat.lt_ge_cases i k) as [H|H]; [exact H|].
        rewrite nth_error_app2 in Ed by (rewrite map_length, seq_length; exact H).
        apply nth_error_In, in_map_iff in Ed as (sp & Es & _). discriminate.
    + intros l Hl Hsame. rewrite Hlt, Hlen. f_equal. f_equal.
      rewrite <- (map_length fst (count_all samples)). apply Nat.le_antisymm; apply NoDup_incl_length.
      * apply increasing_NoDup; exact B.
      * intros c Hi. apply Hsame, Hin, Hi.
      * exact Hl.
      * intros c Hi. apply Hin, Hsame, Hi.
    + intros c Hi. apply Hin in Hi. rewrite <- Hc in Hi. destruct (made_known _ _ _ _ c Hm Hi) as (e & Ee).
      exists e. split; [unfold char_encoding; rewrite Ee; reflexivity|].
      apply sget_in in Ee. destruct (M3 _ _ Ee) as (i & sp & ds & _ & -> & _). discriminate.
    + exact Hmin.
Qed.

(** ** The ids determine the text *)
Record code_ok (n_ext : nat) (ts : cset) : Prop := {
  co_ext : forall i s, stands_for ts i s -> n_ext <= i;
  co_code : forall c e, sget (c_enc ts) c = Some e -> exists h ds, e = h :: ds /\ n_ext <= h /\
     (forall d, In d ds -> d < n_ext) /\ (ds = [] -> stands_for ts h c);
  co_inj : forall c c' e, sget (c_enc ts) c = Some e -> sget (c_enc ts) c' = Some e -> c = c'
}.

Lemma NoDup_snd_inj {A B} (m : list (A * B)) k k' v : NoDup (map snd m) -> In (k, v) m -> In (k', v) m -> k = k'.
Proof.
  induction m as [|(a, b) m IH]; cbn [map snd]; intros Hn H1 H2; [destruct H1|]. inversion Hn as [|? ? Hx Hn']; subst.
  destruct H1 as [E1|H1], H2 as [E2|H2]; try congruence.
  - injection E1 as -> ->. exfalso. apply Hx. apply (in_map snd) in H2. exact H2.
  - injection E2 as -> ->. exfalso. apply Hx. apply (in_map snd) in H1. exact H1.
  - apply IH; assumption.
Qed.

Lemma chars_made_code n_ext splits groups ts : chars_made n_ext splits groups ts -> code_ok n_ext ts.
Proof.
  intros [M1 M2 M3 M4 _]. split.
  - intros i s (t & Et & Hs). destruct (Nat.lt_ge_cases i n_ext) as [H|H]; [|exact H]. exfalso.
    rewrite M1, nth_error_app1 in Et by (rewrite map_length, seq_length; exact H).
    apply nth_error_In, in_map_iff in Et as (j & <- & _). discriminate.
  - intros c e E. apply sget_in in E. destruct (M3 _ _ E) as (i & sp & ds & H1 & -> & H3 & H4).
    exists (n_ext + i), ds. split; [reflexivity|]. split; [lia|]. split; [exact H3|]. intros Hd. rewrite (H4 Hd).
    exists (CChar (sp_top sp)). split; [|reflexivity]. rewrite M1, nth_error_app2 by (rewrite map_length, seq_length; lia).
    rewrite map_length, seq_length. replace (n_ext + i - n_ext) with i by lia. rewrite nth_error_map, H1. reflexivity.
  - intros c c' e E E'. apply sget_in in E, E'. eapply NoDup_snd_inj; eauto.
Qed.

Lemma code_ok_string n_ext ts s : n_ext <= length (c_tokens ts) -> code_ok n_ext ts -> code_ok n_ext (fst (add_string ts s)).
Proof.
  intros Hl [A B C]. unfold add_string. cbn [fst]. split.
  - intros i s'. rewrite stands_for_snoc. intros [H|(-> & _)]; [eauto|exact Hl].
  - intros c e E. destruct (B c e E) as (h & ds & H1 & H2 & H3 & H4). exists h, ds. split; [exact H1|]. split; [exact H2|]. split; [exact H3|].
    intros Hd. rewrite stands_for_snoc. left. auto.
  - exact C.
Qed.

Lemma with_strings_facts n_ext ts ts' : with_strings ts ts' -> n_ext <= length (c_tokens ts) -> code_ok n_ext ts ->
  n_ext <= length (c_tokens ts') /\ code_ok n_ext ts' /\ c_enc ts' = c_enc ts /\ (built ts -> built ts').
Proof.
  intros H Hl Hc. induction H as [|ts' s H (IH1 & IH2 & IH3 & IH4) Hu]; [auto|].
  split; [cbn; rewrite app_length; cbn; lia|]. split; [apply code_ok_string; assumption|]. split; [exact IH3|].
  intros Hb. apply built_str; auto.
Qed.

(** a block of ids ends before the next id that is not an extension *)
Lemma blocks n_ext ds ds' r r' : (forall d, In d ds -> d < n_ext) -> (forall d, In d ds' -> d < n_ext) ->
  (forall x l, r = x :: l -> n_ext <= x) -> (forall x l, r' = x :: l -> n_ext <= x) -> ds ++ r = ds' ++ r' -> ds = ds' /\ r = r'.
Proof.
  revert ds'. induction ds as [|d ds IH]; intros [|d' ds'] H1 H2 H3 H4 E; cbn in E.
  - auto.
  - subst r. exfalso. specialize (H3 d' _ eq_refl). specialize (H2 d' (or_introl eq_refl)). lia.
  - subst r'. exfalso. specialize (H4 d _ eq_refl). specialize (H1 d (or_introl eq_refl)). lia.
  - injection E as -> E. destruct (IH ds') as (-> & ->); auto; intros x Hx; [apply H1|apply H2]; right; exact Hx.
Qed.

(** the block of a piece *)
Lemma piece_block n_ext ts p s ps ids : code_ok n_ext ts -> is_piece ts p s ->
  (forall c, p = PLit c -> exists e, sget (c_enc ts) c = Some e) -> emits ts (p :: ps) ids ->
  exists h ds rest, ids = h :: ds ++ rest /\ n_ext <= h /\ (forall d, In d ds -> d < n_ext) /\ emits ts ps rest /\
    (ds = [] -> stands_for ts h s) /\ (ds <> [] -> p = PLit s /\ sget (c_enc ts) s = Some (h :: ds)).
Proof.
  intros Hco Hp Hk He. inversion He as [|i ps' ids' He' E1 E2|c e ps' ids' Hc He' E1 E2]; subst.
  - inversion Hp; subst. exists i, [], ids'. split; [reflexivity|]. split; [eapply co_ext; eauto|]. split; [intros d []|].
    split; [exact He'|]. split; [auto|congruence].
  - inversion Hp as [|? Hch Hno E3 E4]; subst. destruct (Hk s eq_refl) as (e' & Ee).
    assert (e' = e) by (unfold char_encoding in Hc; rewrite Ee in Hc; congruence). subst e'.
    destruct (co_code _ _ Hco _ _ Ee) as (h & ds & -> & Hh & Hd & Hs).
    exists h, ds, ids'. split; [reflexivity|]. split; [exact Hh|]. split; [exact Hd|]. split; [exact He'|]. split; [exact Hs|]. auto.
Qed.

Lemma stands_for_fun ts i s s' : stands_for ts i s -> stands_for ts i s' -> s = s'.
Proof. intros (t & E & H) (t' & E' & H'). congruence. Qed.

Lemma ids_head n_ext ts t ps ids : code_ok n_ext ts -> made_of ts t ps -> (forall c, In (PLit c) ps -> exists e, sget (c_enc ts) c = Some e) ->
  emits ts ps ids -> forall x l, ids = x :: l -> n_ext <= x.
Proof.
  intros Hco Hm Hk He x l E. destruct Hm as [|p s r ps Hp Hm]; [inversion He; subst; discriminate|].
  destruct (piece_block n_ext ts p s ps ids Hco Hp) as (h & ds & rest & -> & Hh & _); [intros c ->; apply Hk; left; reflexivity|exact He|].
  injection E as <- _. exact Hh.
Qed.

Lemma ids_inj n_ext ts : code_ok n_ext ts -> forall t1 ps1, made_of ts t1 ps1 -> forall t2 ps2 ids, made_of ts t2 ps2 ->
  (forall c, In (PLit c) ps1 \/ In (PLit c) ps2 -> exists e, sget (c_enc ts) c = Some e) ->
  emits ts ps1 ids -> emits ts ps2 ids -> t1 = t2.
Proof.
  intros Hco t1 ps1 Hm1. induction Hm1 as [|p s r ps Hp Hm IH]; intros t2 ps2 ids Hm2 Hk He1 He2.
  - inversion He1; subst. destruct Hm2 as [|p2 s2 r2 ps2 Hp2 Hm2]; [reflexivity|]. exfalso.
    destruct (piece_block n_ext ts p2 s2 ps2 [] Hco Hp2) as (h & ds & rest & E & _); [intros c ->; apply Hk; right; left; reflexivity|exact He2|discriminate].
  - destruct (piece_block n_ext ts p s ps ids Hco Hp) as (h & ds & rest & E1 & Hh & Hd & Her & Hs1 & Hs2);
      [intros c ->; apply Hk; left; left; reflexivity|exact He1|].
    destruct Hm2 as [|p2 s2 r2 ps2 Hp2 Hm2]; [inversion He2; subst; discriminate|].
    destruct (piece_block n_ext ts p2 s2 ps2 ids Hco Hp2) as (h' & ds' & rest' & E2 & Hh' & Hd' & Her' & Hs1' & Hs2');
      [intros c ->; apply Hk; right; left; reflexivity|exact He2|].
    rewrite E1 in E2. injection E2 as <- E2.
    destruct (blocks n_ext ds ds' rest rest') as (<- & <-); auto.
    { eapply (ids_head n_ext ts r ps); eauto. intros c Hc; apply Hk; left; right; exact Hc. }
    { eapply (ids_head n_ext ts r2 ps2); eauto. intros c Hc; apply Hk; right; right; exact Hc. }
    assert (s = s2).
    { destruct ds as [|d ds].
      - eapply stands_for_fun; eauto.
      - destruct (Hs2 ltac:(discriminate)) as (_ & Ea). destruct (Hs2' ltac:(discriminate)) as (_ & Eb). eapply co_inj; eauto. }
    subst s2. f_equal. apply (IH r2 ps2 rest); auto. intros c [Hc|Hc]; apply Hk; [left|right]; right; exact Hc.
Qed.

Lemma made_lit_chars ts t ps c : cset_ok ts -> made_of ts t ps -> In (PLit c) ps -> In c (chars t).
Proof.
  intros Hok. induction 1 as [|p s r ps Hp Hm IH]; intros Hi; [destruct Hi|].
  rewrite chars_app by (eapply piece_utf8; eauto). apply in_app_iff. destruct Hi as [->|Hi]; [left|right; auto].
  inversion Hp as [|? Hc _ E1 E2]; subst. pose proof (chars_cons s [] Hc) as E. rewrite app_nil_r in E. rewrite E. left; reflexivity.
Qed.

Lemma cost_ids ts ps ids : (forall c, In (PLit c) ps -> exists e, sget (c_enc ts) c = Some e /\ length e < 256) ->
  emits ts ps ids -> cost ts ps = length ids.
Proof.
  intros Hk. induction 1 as [|i ps ids He IH|c e ps ids Hc He IH]; [reflexivity| |].
  - unfold cost in *. cbn [map]. rewrite sum_cons, IH by (intros c Hc; apply Hk; right; exact Hc). reflexivity.
  - unfold cost in *. cbn [map]. rewrite sum_cons, IH by (intros c' Hc'; apply Hk; right; exact Hc').
    destruct (Hk c (or_introl eq_refl)) as (e' & Ee & Hl).
    assert (e' = e) by (unfold char_encoding in Hc; rewrite Ee in Hc; congruence). subst e'.
    cbn [piece_cost]. unfold char_cost. rewrite Ee, Nat.mod_small by exact Hl. rewrite app_length. reflexivity.
Qed.

Lemma emits_exists ts ps : (forall c, In (PLit c) ps -> exists e, sget (c_enc ts) c = Some e) -> exists ids, emits ts ps ids.
Proof.
  induction ps as [|p ps IH]; intros Hk; [exists []; constructor|].
  destruct IH as (ids & H); [intros c Hc; apply Hk; right; exact Hc|].
  destruct p as [i|c]; [exists (i :: ids); constructor; exact H|].
  destruct (Hk c (or_introl eq_refl)) as (e & E). exists (e ++ ids). constructor; [|exact H].
  unfold char_encoding. rewrite E. reflexivity.
Qed.

(** C73, the full claim: the ids written for a text determine the text. *)
Definition ids_determine_text (known : list bstr -> bstr -> Prop) : Prop :=
  forall samples n ts0 ts t1 ps1 t2 ps2 ids, Forall utf8 samples ->
  optimize_chars_by_ext (count_all samples) n = Ret ts0 -> with_strings ts0 ts ->
  (forall c, In c (chars t1) \/ In c (chars t2) -> known samples c) ->
  made_of ts t1 ps1 -> made_of ts t2 ps2 -> emits ts ps1 ids -> emits ts ps2 ids -> t1 = t2.

(** Proved for texts of characters that occur in the data the set was made
    from; for them ids exist, and their number is the cost of the pieces if no
    code is longer than 255. *)
Theorem C73_ids_determine_text_partial :
  ids_determine_text (fun samples c => In c (data_chars samples)) /\
  forall samples n ts0 ts t ps, Forall utf8 samples ->
    optimize_chars_by_ext (count_all samples) n = Ret ts0 -> with_strings ts0 ts ->
    (forall c, In c (chars t) -> In c (data_chars samples)) -> made_of ts t ps ->
    exists ids, emits ts ps ids /\ ((forall c, code_len ts c < 256) -> cost ts ps = length ids).
Proof.
  assert (F : forall samples n ts0 ts, Forall utf8 samples -> optimize_chars_by_ext (count_all samples) n = Ret ts0 -> with_strings ts0 ts ->
    exists n_ext, code_ok n_ext ts /\ cset_ok ts /\ forall c, In c (data_chars samples) -> exists e, sget (c_enc ts) c = Some e).
  { intros samples n ts0 ts Hu E Hw. destruct (Nat.lt_ge_cases n 3) as [Hn|Hn].
    { rewrite (proj1 (C74_number_of_extension_tokens samples n Hu) Hn) in E. discriminate. }
    destruct (by_ext_ok samples n Hu Hn) as (ts0' & k & splits & groups & E' & Hk & Eo & Hb & Hc & Hlen & Hm & _).
    assert (ts0' = ts0) by congruence. subst ts0'. exists k.
    destruct (with_strings_facts k ts0 ts Hw) as (W1 & W2 & W3 & W4).
    { destruct Hm as [M1 _ _ _ _]. rewrite M1, app_length, !map_length, seq_length. lia. }
    { eapply chars_made_code; eauto. }
    split; [exact W2|]. split; [apply built_ok, W4, Hb|]. intros c Hi. rewrite W3.
    apply (made_known _ _ _ _ c Hm). rewrite Hc. apply count_all_ok; assumption. }
  split.
  - intros samples n ts0 ts t1 ps1 t2 ps2 ids Hu E Hw Hkn Hm1 Hm2 He1 He2.
    destruct (F _ _ _ _ Hu E Hw) as (k & Hco & Hok & Hk). eapply (ids_inj k ts Hco); eauto.
    intros c [Hc|Hc]; apply Hk, Hkn; [left|right]; eapply made_lit_chars; eauto.
  - intros samples n ts0 ts t ps Hu E Hw Hkn Hm.
    destruct (F _ _ _ _ Hu E Hw) as (k & Hco & Hok & Hk).
    assert (Hl : forall c, In (PLit c) ps -> exists e, sget (c_enc ts) c = Some e).
    { intros c Hc. apply Hk, Hkn. eapply made_lit_chars; eauto. }
    destruct (emits_exists ts ps Hl) as (ids & He). exists ids. split; [exact He|].
    intros Hlen. apply cost_ids; [|exact He]. intros c Hc. destruct (Hl c Hc) as (e & Ee). exists e. split; [exact Ee|].
    specialize (Hlen c). unfold code_len, char_encoding in Hlen. rewrite Ee in Hlen. exact Hlen.
Qed.

(** The full claim is false: a character below 256 that does not occur in the
    data has an empty code, so it vanishes. *)
Theorem C73_ids_determine_text_refuted : ~ ids_determine_text (fun _ _ => True).
Proof.
  intros H.
  pose (samples := [[x61; x62]]).
  assert (Hu : Forall utf8 samples) by (repeat constructor; apply utf8_ascii; repeat constructor; cbn; lia).
  destruct (optimize_chars_by_ext (count_all samples) 4) as [ts| |] eqn:E; [|vm_compute in E; discriminate|vm_compute in E; discriminate].
  assert (Et : ts = mkCset [CExt 0; CExt 1; CChar [x61]; CChar [x62]] [([x62], [3]); ([x61], [2])] [([x62], 3); ([x61], 2)]).
  { vm_compute in E. injection E as <-. reflexivity. }
  assert (Ha : is_piece ts (PTok 2) [x61]).
  { constructor; [|discriminate]. exists (CChar [x61]). rewrite Et. split; reflexivity. }
  assert (Hc : is_piece ts (PLit [x63]) [x63]).
  { constructor; [constructor; cbn; lia|]. intros i (t & Ei & Hs). rewrite Et in Ei. cbn in Ei.
    destruct i as [|[|[|[|i]]]]; cbn in Ei; try (injection Ei as <-; discriminate). destruct i; discriminate. }
  assert (M1 : made_of ts [x61] [PTok 2]) by (rewrite <- (app_nil_r [x61]); constructor; [exact Ha|constructor]).
  assert (M2 : made_of ts [x61; x63] [PTok 2; PLit [x63]]).
  { change [x61; x63] with ([x61] ++ [x63] ++ []). constructor; [exact Ha|]. constructor; [exact Hc|constructor]. }
  assert (E1 : emits ts [PTok 2] [2]) by (repeat constructor).
  assert (E2 : emits ts [PTok 2; PLit [x63]] [2]).
  { constructor. change (@nil nat) with ([] ++ @nil nat) at 1. constructor; [|constructor]. rewrite Et. reflexivity. }
  specialize (H samples 4 ts ts [x61] [PTok 2] [x61; x63] [PTok 2; PLit [x63]] [2] Hu E (ws_same ts) (fun _ _ => I) M1 M2 E1 E2).
  discriminate.
Qed.
