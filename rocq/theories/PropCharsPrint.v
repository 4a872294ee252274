(** * C117: what is printed of a character token set is the whole set: [Display] of src/chars/tokens.rs. *)
From Coq Require Import String Permutation.
From Verif Require Import Base BaseLemmas Utf8 SortLemmas TokenSetModel JsonModel PrintModel PropPrint.
From Verif Require Import ProcessingModel PropProcessing CountModel PropCount OptBytesProof TokenSetProof.
From Verif Require Import CharsModel CharsOptProof PropCharsTok PropCharsOpt PropCharsBpe CharsJsonModel PropCharsJson.
Local Open Scope list_scope.
Local Notation length := List.length.
Local Notation concat := List.concat.

(** ** The model *)
Section Show.
(** Whether a character is printed as it is, as in PrintModel.v. *)
Variable plain : bstr -> bool.

(** src/chars/tokens.rs:45-53 [Display] of a token: [{:?}] of a [char] and of a [String] *)
Definition show_ctoken (t : ctoken) : bstr :=
  match t with CExt n => decimal n | CChar c => debug_char plain c | CStr s => debug_str plain s end.

(** src/chars/tokens.rs:221-223 and 234-236: the tokens of a code *)
Definition show_code (ts : cset) (e : list nat) : outcome bstr :=
  l <- mmap (fun i => t <- idx (c_tokens ts) i ;; Ret (x20 :: show_ctoken t)) e ;; Ret (concat l).

(** src/chars/tokens.rs:217-226 for a character below 256, 231-238 for the others *)
Definition show_enc (ts : cset) (c : bstr) : outcome bstr :=
  match sget (c_enc ts) c with
  | None => Ret []
  | Some e =>
      if lo_char c && (length e =? 0) then Ret []
      else s <- show_code ts e ;; Ret (debug_char plain c ++ [x20] ++ s ++ [x0a])
  end.

(** src/chars/tokens.rs:209-242 [Display] of the set.  The loop over the characters below 256 and
    the sorted others are together the characters in increasing order, which is the order of their
    encodings in UTF-8. *)
Definition show_cset (ts : cset) : outcome bstr :=
  let keys := stable_sort (fun a b => cmp_leb (bstr_cmp a b)) (nodup (list_eq_dec Byte.byte_eq_dec) (map fst (c_enc ts))) in
  lines <- mmap (show_enc ts) keys ;;
  Ret (flat_map (fun p => decimal (fst p) ++ lit "  " ++ show_ctoken (snd p) ++ [x0a]) (enum (c_tokens ts)) ++ [x0a] ++ concat lines).

(** ** Reading it back *)
Definition ctoken_ok (t : ctoken) : Prop := match t with CExt _ => True | CChar c => utf8_char c | CStr s => utf8 s end.

Lemma ctoken_prefix t u r r' b b' : ctoken_ok t -> ctoken_ok u -> ~ digit b -> ~ digit b' ->
  show_ctoken t ++ b :: r = show_ctoken u ++ b' :: r' -> t = u /\ b :: r = b' :: r'.
Proof.
  intros Ht Hu Hb Hb' E. assert (D : forall n s, exists d y, decimal n ++ s = d :: y /\ digit d).
  { intros n s. destruct (decimal_digits n) as (F & N). destruct (decimal n) as [|d y]; [congruence|]. inversion F; subst. cbn. eauto. }
  destruct t as [n|c|s], u as [m|c'|s']; cbn [show_ctoken ctoken_ok] in *.
  - apply decimal_split in E as (-> & -> & ->); auto.
  - exfalso. destruct (D n (b :: r)) as (d & y & Ed & Hd). rewrite Ed in E. injection E as -> _. revert Hd. nodigit.
  - exfalso. destruct (D n (b :: r)) as (d & y & Ed & Hd). rewrite Ed in E. injection E as -> _. revert Hd. nodigit.
  - exfalso. destruct (D m (b' :: r')) as (d & y & Ed & Hd). rewrite Ed in E. injection E as <- _. revert Hd. nodigit.
  - apply debug_char_prefix in E as (-> & E); auto.
  - exfalso. discriminate E.
  - exfalso. destruct (D m (b' :: r')) as (d & y & Ed & Hd). rewrite Ed in E. injection E as <- _. revert Hd. nodigit.
  - exfalso. discriminate E.
  - apply debug_str_prefix in E as (-> & E); auto.
Qed.

Lemma token_lines_prefix l : forall l' i r r', Forall ctoken_ok l -> Forall ctoken_ok l' ->
  let line := fun p => decimal (fst p) ++ lit "  " ++ show_ctoken (snd p) ++ [x0a] in
  flat_map line (enum_from i l) ++ x0a :: r = flat_map line (enum_from i l') ++ x0a :: r' -> l = l' /\ r = r'.
Proof.
  cbv zeta. induction l as [|t l IH]; intros [|u l'] i r r' Hl Hl' E; cbn [enum_from flat_map fst snd] in E.
  - injection E as ->. auto.
  - exfalso. cbn [app] in E. rewrite <- !app_assoc in E. destruct (decimal_digits i) as (F & N). destruct (decimal i) as [|d y]; [congruence|]. inversion F as [|? ? Hd _]; subst.
    cbn in E. injection E as <- _. revert Hd. nodigit.
  - exfalso. cbn [app] in E. rewrite <- !app_assoc in E. destruct (decimal_digits i) as (F & N). destruct (decimal i) as [|d y]; [congruence|]. inversion F as [|? ? Hd _]; subst.
    cbn in E. injection E as -> _. revert Hd. nodigit.
  - inversion Hl as [|? ? Ht Hl1]; subst. inversion Hl' as [|? ? Hu Hl1']; subst. rewrite <- !app_assoc in E. apply app_inv_head in E. apply app_inv_head in E.
    apply ctoken_prefix in E as (-> & E); try assumption; try nodigit. injection E as E. apply IH in E as (-> & ->); auto.
Qed.

Definition code_text (toks : list ctoken) : bstr := flat_map (fun t => x20 :: show_ctoken t) toks.

Lemma code_prefix l : forall l' r r', Forall ctoken_ok l -> Forall ctoken_ok l' -> code_text l ++ x0a :: r = code_text l' ++ x0a :: r' -> l = l' /\ r = r'.
Proof.
  assert (X : forall toks r, exists b y, code_text toks ++ x0a :: r = b :: y /\ ~ digit b).
  { intros [|t toks] r; cbn; eexists; eexists; (split; [reflexivity|nodigit]). }
  induction l as [|t l IH]; intros [|u l'] r r' Hl Hl' E; unfold code_text in E; cbn [flat_map app] in E.
  - injection E as ->. auto.
  - discriminate E.
  - discriminate E.
  - injection E as E. inversion Hl as [|? ? Ht Hl1]; subst. inversion Hl' as [|? ? Hu Hl1']; subst. rewrite <- !app_assoc in E. fold (code_text l) (code_text l') in E.
    destruct (X l r) as (b & y & E1 & B1). destruct (X l' r') as (b' & y' & E2 & B2). rewrite E1, E2 in E.
    apply ctoken_prefix in E as (-> & E); try assumption. rewrite <- E1, <- E2 in E. apply IH in E as (-> & ->); auto.
Qed.

Definition enc_text (p : bstr * list ctoken) : bstr := debug_char plain (fst p) ++ [x20] ++ code_text (snd p) ++ [x0a].

Lemma enc_prefix l : forall l', (forall c t, In (c, t) l -> utf8_char c /\ Forall ctoken_ok t) -> (forall c t, In (c, t) l' -> utf8_char c /\ Forall ctoken_ok t) ->
  flat_map enc_text l = flat_map enc_text l' -> l = l'.
Proof.
  induction l as [|(c & t) l IH]; intros [|(c' & t') l'] Hl Hl' E; cbn [flat_map] in E.
  - reflexivity.
  - discriminate E.
  - discriminate E.
  - unfold enc_text in E at 1 3. cbn [fst snd] in E. destruct (Hl c t (or_introl eq_refl)) as (Hc & Ht). destruct (Hl' c' t' (or_introl eq_refl)) as (Hc' & Ht').
    rewrite <- !app_assoc in E. apply debug_char_prefix in E as (-> & E); try assumption. apply app_inv_head in E. cbn [app] in E.
    apply code_prefix in E as (-> & E); try assumption. f_equal. apply IH; [intros; apply Hl; right; assumption|intros; apply Hl'; right; assumption|exact E].
Qed.

Definition spelled (ts : cset) (e : list nat) (toks : list ctoken) : Prop := Forall2 (fun i t => nth_error (c_tokens ts) i = Some t) e toks.

Lemma show_code_ret ts e s : show_code ts e = Ret s -> exists toks, spelled ts e toks /\ s = code_text toks.
Proof.
  unfold show_code, spelled. revert s. induction e as [|i e IH]; intros s E; cbn [mmap] in E.
  - injection E as <-. exists []. split; [constructor|reflexivity].
  - unfold idx at 1 in E. destruct (nth_error (c_tokens ts) i) as [t|] eqn:Et; [|discriminate]. cbn [bind] in E.
    destruct (mmap _ e) as [l| |] eqn:El; try discriminate. cbn [bind] in E. destruct (IH (concat l) eq_refl) as (toks & F & Es).
    exists (t :: toks). split; [constructor; assumption|]. injection E as <-. cbn [concat app]. rewrite Es. reflexivity.
Qed.

(** What is listed: a code for every character that has one, except empty codes of small characters. *)
Definition listed (ts : cset) (c : bstr) (toks : list ctoken) : Prop :=
  exists e, sget (c_enc ts) c = Some e /\ lo_char c && (length e =? 0) = false /\ spelled ts e toks.

Lemma show_encs_ret ts keys : forall lines, mmap (show_enc ts) keys = Ret lines ->
  (exists l, concat lines = flat_map enc_text l /\ forall c toks, In (c, toks) l <-> In c keys /\ listed ts c toks) /\
  forall c e, In c keys -> sget (c_enc ts) c = Some e -> lo_char c && (length e =? 0) = false -> exists toks, spelled ts e toks.
Proof.
  induction keys as [|k keys IH]; intros lines E; cbn [mmap] in E.
  - injection E as <-. split; [|intros c e []]. exists []. split; [reflexivity|]. intros c toks. split; [intros []|intros ([] & _)].
  - destruct (show_enc ts k) as [s| |] eqn:Es; try discriminate. cbn [bind] in E. destruct (mmap (show_enc ts) keys) as [ls| |] eqn:El; try discriminate. cbn [bind] in E.
    injection E as <-. destruct (IH ls eq_refl) as ((l & H1 & H2) & H3). unfold show_enc in Es. destruct (sget (c_enc ts) k) as [e|] eqn:Ee.
    + destruct (lo_char k && (length e =? 0)) eqn:Eb.
      * injection Es as <-. split.
        -- exists l. split; [exact H1|]. intros c toks. rewrite H2. split; [intros (A & B); split; [right; exact A|exact B]|].
           intros ([->|A] & B); [|auto]. destruct B as (e' & E1 & E2 & _). rewrite Ee in E1. injection E1 as <-. congruence.
        -- intros c e' [->|A] E1 E2; [|eauto]. rewrite Ee in E1. injection E1 as <-. congruence.
      * destruct (show_code ts e) as [t| |] eqn:Et; try discriminate. cbn [bind] in Es. injection Es as <-. apply show_code_ret in Et as (toks & F & ->). split.
        -- exists ((k, toks) :: l). split; [cbn [concat flat_map]; rewrite H1; reflexivity|]. intros c toks'. cbn [In]. rewrite H2. split.
           ++ intros [Ep|(A & B)]; [injection Ep as <- <-; split; [left; reflexivity|exists e; auto]|split; [right; exact A|exact B]].
           ++ intros ([->|A] & B); [|auto]. left. destruct B as (e' & E1 & _ & F'). rewrite Ee in E1. injection E1 as <-. f_equal.
              clear - F F'. unfold spelled in *. revert toks' F'. induction F as [|i t e toks Hi F IH]; intros toks' F'; inversion F'; subst; [reflexivity|]. f_equal; [congruence|auto].
        -- intros c e' [->|A] E1 E2; [|eauto]. rewrite Ee in E1. injection E1 as <-. eauto.
    + injection Es as <-. split.
      * exists l. split; [exact H1|]. intros c toks. rewrite H2. split; [intros (A & B); split; [right; exact A|exact B]|].
        intros ([->|A] & B); [|auto]. destruct B as (e' & E1 & _). congruence.
      * intros c e' [->|A] E1 E2; [congruence|eauto].
Qed.

(** Sets whose text can be read back. *)
Record readable (ts : cset) : Prop := {
  rd_tokens : Forall ctoken_ok (c_tokens ts);
  rd_distinct : NoDup (c_tokens ts);
  rd_keys : Forall utf8_char (map fst (c_enc ts))
}.

Lemma sget_keys {V} (m : smap V) k v : sget m k = Some v -> In k (map fst m).
Proof.
  induction m as [|(a & b) m IH]; cbn; intros E; [discriminate|]. destruct (bstr_eqb_spec k a) as [->|_]; [left; reflexivity|right; apply IH, E].
Qed.

Lemma sort_in (l : list bstr) c : In c (stable_sort (fun a b => cmp_leb (bstr_cmp a b)) l) <-> In c l.
Proof. split; apply Permutation_in; [|symmetry]; apply sort_perm. Qed.

Lemma show_cset_ret ts text : readable ts -> show_cset ts = Ret text -> exists l,
  text = flat_map (fun p => decimal (fst p) ++ lit "  " ++ show_ctoken (snd p) ++ [x0a]) (enum_from 0 (c_tokens ts)) ++ x0a :: flat_map enc_text l /\
  (forall c toks, In (c, toks) l <-> listed ts c toks) /\ (forall c toks, In (c, toks) l -> utf8_char c /\ Forall ctoken_ok toks) /\
  forall c e, sget (c_enc ts) c = Some e -> lo_char c && (length e =? 0) = false -> exists toks, spelled ts e toks.
Proof.
  intros [R1 R2 R3] E. unfold show_cset in E. cbv zeta in E. destruct (mmap _ _) as [lines| |] eqn:El; try discriminate. cbn [bind] in E. injection E as <-.
  apply show_encs_ret in El as ((l & H1 & H2) & H3). exists l. rewrite H1. split; [reflexivity|].
  assert (G : forall c toks, In (c, toks) l <-> listed ts c toks).
  { intros c toks. rewrite H2, sort_in, nodup_In. split; [intros (_ & H); exact H|]. intros H. split; [|exact H]. destruct H as (e & Ee & _). eapply sget_keys, Ee. }
  split; [exact G|]. split; [|intros c e Ee; apply H3; [apply sort_in, nodup_In; eapply sget_keys, Ee|exact Ee]].
  intros c toks Hi. apply G in Hi as (e & Ee & _ & F). split.
  - rewrite Forall_forall in R3. apply R3. eapply sget_keys, Ee.
  - rewrite Forall_forall in R1. clear - F R1. unfold spelled in F. induction F as [|i t e toks Hi F IH]; constructor; [|assumption]. apply R1. eapply nth_error_In, Hi.
Qed.

Lemma spelled_inj ts e e' toks : NoDup (c_tokens ts) -> spelled ts e toks -> spelled ts e' toks -> e = e'.
Proof.
  intros Hn F. revert e'. unfold spelled in *. induction F as [|i t e toks Hi F IH]; intros e' F'; inversion F' as [|j ? e1 ? Hj F1]; subst; [reflexivity|]. f_equal; [|auto].
  apply (proj1 (NoDup_nth_error _) Hn); [apply nth_error_Some; congruence|congruence].
Qed.

Lemma printout_determines ts1 ts2 text : readable ts1 -> readable ts2 -> show_cset ts1 = Ret text -> show_cset ts2 = Ret text ->
  c_tokens ts1 = c_tokens ts2 /\ forall c, char_encoding ts1 c = char_encoding ts2 c /\ char_cost ts1 c = char_cost ts2 c.
Proof.
  intros R1 R2 E1 E2. destruct (show_cset_ret ts1 text R1 E1) as (l1 & T1 & L1 & O1 & S1). destruct (show_cset_ret ts2 text R2 E2) as (l2 & T2 & L2 & O2 & S2).
  rewrite T1 in T2. apply token_lines_prefix in T2 as (Et & T2); [|apply R1|apply R2]. apply enc_prefix in T2; try assumption. subst l2. split; [exact Et|].
  assert (X : forall a b, c_tokens a = c_tokens b -> NoDup (c_tokens b) -> (forall c toks, listed a c toks -> listed b c toks) ->
      (forall c e, sget (c_enc a) c = Some e -> lo_char c && (length e =? 0) = false -> exists toks, spelled a e toks) ->
      forall c e, sget (c_enc a) c = Some e -> lo_char c && (length e =? 0) = false -> sget (c_enc b) c = Some e).
  { intros a b Eab Hn Hl Hs c e Ee Hb. destruct (Hs c e Ee Hb) as (toks & F). destruct (Hl c toks) as (e' & Ee' & _ & F'); [exists e; auto|].
    rewrite Ee'. f_equal. apply (spelled_inj b e' e toks Hn F'). unfold spelled in *. rewrite <- Eab. exact F. }
  assert (G : forall c toks, listed ts1 c toks <-> listed ts2 c toks) by (intros c toks; rewrite <- L1; apply L2).
  assert (X1 := X ts1 ts2 Et (rd_distinct _ R2) (fun c toks => proj1 (G c toks)) S1).
  assert (X2 := X ts2 ts1 (eq_sym Et) (rd_distinct _ R1) (fun c toks => proj2 (G c toks)) S2).
  intros c. unfold char_encoding, char_cost. specialize (X1 c). specialize (X2 c).
  destruct (sget (c_enc ts1) c) as [e1|], (sget (c_enc ts2) c) as [e2|].
  - destruct (lo_char c && (length e1 =? 0)) eqn:B1.
    + destruct (lo_char c && (length e2 =? 0)) eqn:B2; [|specialize (X2 e2 eq_refl B2); injection X2 as ->; congruence].
      apply Bool.andb_true_iff in B1 as (_ & B1). apply Bool.andb_true_iff in B2 as (_ & B2). apply Nat.eqb_eq in B1, B2. destruct e1, e2; try discriminate. auto.
    + specialize (X1 e1 eq_refl B1). injection X1 as <-. auto.
  - destruct (lo_char c && (length e1 =? 0)) eqn:B1; [|specialize (X1 e1 eq_refl B1); discriminate].
    apply Bool.andb_true_iff in B1 as (Hlo & B1). apply Nat.eqb_eq in B1. destruct e1; try discriminate. rewrite Hlo. auto.
  - destruct (lo_char c && (length e2 =? 0)) eqn:B2; [|specialize (X2 e2 eq_refl B2); discriminate].
    apply Bool.andb_true_iff in B2 as (Hlo & B2). apply Nat.eqb_eq in B2. destruct e2; try discriminate. rewrite Hlo. auto.
  - auto.
Qed.
End Show.

(** ** Equal sets count the same *)
Lemma mfold_ext {S A} (f g : S -> A -> outcome S) l : (forall s x, f s x = g s x) -> forall s, mfold f l s = mfold g l s.
Proof. intros H. induction l as [|x l IH]; intros s; [reflexivity|]. cbn [mfold]. rewrite H. destruct (g s x); cbn [bind]; [apply IH|reflexivity..]. Qed.

Definition numbers (s : cstats) : nat * nat * list ((nat * nat) * nat) := (cst_total s, cst_literals s, cst_pairs s).
Definition with_set (ts : cset) (s : cstats) : cstats := mkCstats ts (cst_total s) (cst_literals s) (cst_pairs s).

Section Same.
Variables ts1 ts2 : cset.
Hypothesis Htok : c_tokens ts1 = c_tokens ts2.
Hypothesis Hstr : forall s, sget (c_by_str ts1) s = sget (c_by_str ts2) s.
Hypothesis Hcost : forall c, char_cost ts1 c = char_cost ts2 c.

Lemma forward_same bytes l st : mfold (forward_step ts1 bytes (max_bytes_in_token ts1)) l st = mfold (forward_step ts2 bytes (max_bytes_in_token ts2)) l st.
Proof.
  apply mfold_ext. clear st. intros st pos. unfold forward_step. replace (max_bytes_in_token ts2) with (max_bytes_in_token ts1) by (unfold max_bytes_in_token; rewrite Htok; reflexivity).
  destruct (match nth_error bytes pos with Some b => _ | None => _ end); [reflexivity|].
  replace (best_end ts2 bytes (max_bytes_in_token ts1) st pos) with (best_end ts1 bytes (max_bytes_in_token ts1) st pos); [reflexivity|].
  unfold best_end. apply mfold_ext. intros best from. replace (candidate ts2 bytes st pos from) with (candidate ts1 bytes st pos from); [reflexivity|].
  unfold candidate. destruct (idx st from) as [[cost tid]| |]; cbn [bind]; try reflexivity. destruct tid; try reflexivity;
    (destruct (slice bytes from pos) as [s| |]; cbn [bind]; try reflexivity; destruct (utf8_valid s); [|reflexivity]; rewrite Hstr;
     destruct (sget (c_by_str ts2) s); [reflexivity|]; destruct (chars s) as [|ch [|? ?]]; try reflexivity; rewrite Hcost; reflexivity).
Qed.

Lemma walk_same states fuel : forall pos next s, cst_set s = ts1 ->
  walk_back fuel states pos next (with_set ts2 s) = (x <- walk_back fuel states pos next s ;; Ret (with_set ts2 x)).
Proof.
  induction fuel as [|fuel IH]; intros [|pos] next s Hs; try reflexivity. cbn [walk_back]. destruct (idx states (S pos)) as [[cost tid]| |]; cbn [bind]; try reflexivity.
  destruct tid as [i|ch| |]; try reflexivity.
  - unfold count_token. cbn [with_set cst_set cst_total cst_literals cst_pairs]. rewrite Hs, <- Htok. destruct (idx (c_tokens ts1) i) as [t| |] eqn:Ei; cbn [bind]; try reflexivity.
    destruct next as [n|]; cbn [cst_set cst_total cst_literals cst_pairs]; rewrite <- Htok, Ei; cbn [bind];
      (destruct (bytes_len t) as [l| |]; cbn [bind]; try reflexivity; destruct (checked_sub (S pos) l) as [p'| |]; cbn [bind]; try reflexivity;
       rewrite <- IH by reflexivity; reflexivity).
  - destruct (checked_sub (S pos) (length ch)) as [p'| |]; cbn [bind]; try reflexivity. rewrite <- IH by exact Hs. f_equal. unfold count_literal, with_set.
    cbn [cst_set cst_total cst_literals cst_pairs]. rewrite Hs, Hcost. reflexivity.
Qed.

Lemma process_same text : (s <- process_slice ts1 text ;; Ret (numbers s)) = (s <- process_slice ts2 text ;; Ret (numbers s)).
Proof.
  unfold process_slice. rewrite forward_same. destruct (mfold _ _ _) as [states| |]; cbn [bind]; try reflexivity.
  change (cstats_new ts2) with (with_set ts2 (cstats_new ts1)). rewrite walk_same by reflexivity.
  destruct (walk_back _ _ _ _ (cstats_new ts1)) as [s| |]; reflexivity.
Qed.
End Same.

(** ** The sets of the optimizer *)
Lemma made_readable samples n_ext tops strs ts : made_set samples n_ext tops strs ts -> readable ts.
Proof.
  intros M. split.
  - rewrite (ms_tokens _ _ _ _ _ M). apply Forall_app. split; [apply Forall_forall; intros t Hi; apply in_map_iff in Hi as (i & <- & _); exact I|].
    apply Forall_app. split; apply Forall_forall; intros t Hi; apply in_map_iff in Hi as (x & <- & Hx); cbn.
    + apply In_nth_error in Hx as (i & Ei). apply (ms_tops _ _ _ _ _ M) in Ei. apply (in_map fst) in Ei. pose proof (ms_chars _ _ _ _ _ M) as F. rewrite Forall_forall in F. apply F, Ei.
    + pose proof (ms_utf8 _ _ _ _ _ M) as F. rewrite Forall_forall in F. apply F, in_app_iff. auto.
  - rewrite (ms_tokens _ _ _ _ _ M). pose proof (ms_distinct _ _ _ _ _ M) as D. apply NoDup_app_iff in D as (D1 & D2 & D3).
    apply NoDup_app_iff. split; [|split]; [apply NoDup_map_inj; [congruence|apply seq_NoDup]| |].
    + apply NoDup_app_iff. split; [|split]; [apply NoDup_map_inj; [congruence|exact D1]|apply NoDup_map_inj; [congruence|exact D2]|].
      intros t H1 H2. apply in_map_iff in H1 as (? & <- & _). apply in_map_iff in H2 as (? & X & _). discriminate X.
    + intros t H1 H2. apply in_map_iff in H1 as (? & <- & _). apply in_app_iff in H2 as [H2|H2]; apply in_map_iff in H2 as (? & X & _); discriminate X.
  - exact (ms_chars _ _ _ _ _ M).
Qed.

Lemma made_by_str s1 n1 t1 l1 ts1 s2 n2 t2 l2 ts2 : made_set s1 n1 t1 l1 ts1 -> made_set s2 n2 t2 l2 ts2 -> c_tokens ts1 = c_tokens ts2 ->
  forall s, sget (c_by_str ts1) s = sget (c_by_str ts2) s.
Proof.
  intros M1 M2 E s. assert (U : forall i j, stands_for ts2 i s -> stands_for ts2 j s -> i = j).
  { intros i j Hi Hj. apply (made_stands _ _ _ _ _ _ _ M2) in Hi as (A & B). apply (made_stands _ _ _ _ _ _ _ M2) in Hj as (A' & B').
    assert (i - n2 = j - n2); [|lia]. apply (proj1 (NoDup_nth_error _) (ms_distinct _ _ _ _ _ M2)); [apply nth_error_Some; congruence|congruence]. }
  destruct (ms_set_ok _ _ _ _ _ M1) as [A1 B1 _]. destruct (ms_set_ok _ _ _ _ _ M2) as [A2 B2 _].
  assert (T : forall i, stands_for ts1 i s <-> stands_for ts2 i s) by (intros i; unfold stands_for; rewrite E; reflexivity).
  destruct (sget (c_by_str ts1) s) as [i|] eqn:Ei, (sget (c_by_str ts2) s) as [j|] eqn:Ej.
  - f_equal. apply U; [apply T, A1, Ei|apply A2, Ej].
  - exfalso. apply (B2 s i); [apply T, A1, Ei|exact Ej].
  - exfalso. apply (B1 s j); [apply T, A2, Ej|exact Ei].
  - reflexivity.
Qed.

(** ** C117 *)

(** A set that the optimizer returned can be printed. *)
Theorem C117_printing_succeeds : forall plain order samples n st,
  (forall k l, Permutation (order k l) l) -> Forall utf8 samples -> (N.of_nat n <= 2 ^ 16)%N ->
  optimize_chars_tokens order samples n = Ret st -> exists text, show_cset plain (cst_set st) = Ret text.
Proof.
  intros plain order samples n st Ho Hu Hn E. destruct (run_made order samples n st Ho Hu Hn E) as (n_ext & tops & strs & M & _).
  unfold show_cset. cbv zeta. destruct (mmap (show_enc plain (cst_set st)) _) as [ls| |] eqn:El; [cbn [bind]; eauto| |].
  all: exfalso; revert El; set (keys := stable_sort _ _); clearbody keys.
  all: assert (G : forall c, exists s, show_enc plain (cst_set st) c = Ret s).
  2, 4: intros El; destruct (mmap_total (show_enc plain (cst_set st)) keys) as (r & Er); [intros c _; apply G|congruence].
  all: intros c; unfold show_enc; destruct (sget (c_enc (cst_set st)) c) as [e|] eqn:Ee; [|eauto].
  all: destruct (lo_char c && _); [eauto|]; apply sget_in in Ee; destruct (ms_codes _ _ _ _ _ M c e Ee) as (i & top & ds & Ht & -> & Hds & _).
  all: assert (L : forall j, In j (n_ext + i :: ds) -> exists t, idx (c_tokens (cst_set st)) j = Ret t).
  2, 4: unfold show_code; match goal with |- context [mmap ?f ?l] => destruct (mmap_total f l) as (r & Er) end;
    [intros j Hj; destruct (L j Hj) as (t & Et); rewrite Et; cbn [bind]; eauto|rewrite Er; cbn [bind]; eauto].
  all: intros j Hj; unfold idx; destruct (nth_error (c_tokens (cst_set st)) j) as [t|] eqn:Et; [exists t; reflexivity|]; exfalso; apply nth_error_None in Et;
    rewrite (ms_tokens _ _ _ _ _ M), !app_length, !map_length, seq_length in Et;
    assert (i < length tops) by (apply nth_error_Some; congruence); destruct Hj as [<-|Hj]; [lia|apply Hds in Hj; lia].
Qed.

(** Two sets that are printed alike are the same set: the same tokens with the same ids, the same
    codes, and any text is counted in the same way with both. *)
Theorem C117_printout_determines_set : forall plain order1 samples1 n1 st1 order2 samples2 n2 st2 text,
  (forall k l, Permutation (order1 k l) l) -> Forall utf8 samples1 -> (N.of_nat n1 <= 2 ^ 16)%N -> optimize_chars_tokens order1 samples1 n1 = Ret st1 ->
  (forall k l, Permutation (order2 k l) l) -> Forall utf8 samples2 -> (N.of_nat n2 <= 2 ^ 16)%N -> optimize_chars_tokens order2 samples2 n2 = Ret st2 ->
  show_cset plain (cst_set st1) = Ret text -> show_cset plain (cst_set st2) = Ret text ->
  c_tokens (cst_set st1) = c_tokens (cst_set st2) /\
  (forall c, char_encoding (cst_set st1) c = char_encoding (cst_set st2) c) /\
  (forall t, (s <- process_slice (cst_set st1) t ;; Ret (numbers s)) = (s <- process_slice (cst_set st2) t ;; Ret (numbers s))).
Proof.
  intros plain o1 l1 n1 st1 o2 l2 n2 st2 text Ho1 Hu1 Hn1 E1 Ho2 Hu2 Hn2 E2 P1 P2.
  destruct (run_made o1 l1 n1 st1 Ho1 Hu1 Hn1 E1) as (k1 & tops1 & strs1 & M1 & _). destruct (run_made o2 l2 n2 st2 Ho2 Hu2 Hn2 E2) as (k2 & tops2 & strs2 & M2 & _).
  destruct (printout_determines plain _ _ text (made_readable _ _ _ _ _ M1) (made_readable _ _ _ _ _ M2) P1 P2) as (Et & Ec).
  split; [exact Et|]. split; [intros c; apply Ec|]. intros t. apply process_same; [exact Et|exact (made_by_str _ _ _ _ _ _ _ _ _ _ M1 M2 Et)|intros c; apply Ec].
Qed.

(** A set with codes of two tokens and what is printed of it. *)
Theorem C117_hypotheses_met : exists st, optimize_chars_tokens (fun _ l => l) [[x61; x62; x63; x64; x61; x62; x61; x62; x61; x62; x61; x62]] 4 = Ret st /\
  show_cset ascii_plain (cst_set st) = Ret
    (lit "0  0" ++ [x0a] ++ lit "1  1" ++ [x0a] ++ lit "2  'a'" ++ [x0a] ++ lit "3  'b'" ++ [x0a] ++ [x0a] ++
     lit "'a'  'a'" ++ [x0a] ++ lit "'b'  'b'" ++ [x0a] ++ lit "'c'  'b' 0" ++ [x0a] ++ lit "'d'  'b' 1" ++ [x0a]).
Proof. eexists. split; [vm_compute; reflexivity|]. vm_compute. reflexivity. Qed.
