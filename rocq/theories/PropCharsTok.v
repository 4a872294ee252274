(** * The character tokenizer of src/chars (property C72). *)
From Verif Require Import Base BaseLemmas Utf8 ProcessingModel PropProcessing CountModel CharsModel.

(** ** Specification *)

(** Sets that the functions of the module can build. *)
Inductive built : cset -> Prop :=
| built_new n : built (cset_new n)
| built_char ts c : built ts -> utf8_char c -> built (fst (add_char_token ts c))
| built_enc ts c e : built ts -> utf8_char c -> built (add_encoding ts c e)
| built_str ts s : built ts -> utf8 s -> built (fst (add_string ts s)).

(** Token [i] of the set stands for the string [s]. *)
Definition stands_for (ts : cset) (i : nat) (s : bstr) : Prop :=
  exists t, nth_error (c_tokens ts) i = Some t /\ ctoken_string t = Some s.

(** A piece of a text: a token, or a character without a token of its own. *)
Inductive piece := PTok (i : nat) | PLit (c : bstr).

Inductive is_piece (ts : cset) : piece -> bstr -> Prop :=
| is_tok i s : stands_for ts i s -> s <> [] -> is_piece ts (PTok i) s
| is_lit c : utf8_char c -> (forall i, ~ stands_for ts i c) -> is_piece ts (PLit c) c.

(** The text is the concatenation of the pieces. *)
Inductive made_of (ts : cset) : bstr -> list piece -> Prop :=
| made_nil : made_of ts [] []
| made_cons p s r ps : is_piece ts p s -> made_of ts r ps -> made_of ts (s ++ r) (p :: ps).

(** The number of tokens of a piece, and of a list of pieces. *)
Definition piece_cost (ts : cset) (p : piece) : nat :=
  match p with PTok _ => 1 | PLit c => char_cost ts c end.
Definition cost (ts : cset) (ps : list piece) : nat := sum (map (piece_cost ts) ps).

(** Pieces that are single characters: literals and character tokens. *)
Definition is_char_piece (ts : cset) (p : piece) : bool :=
  match p with
  | PLit _ => true
  | PTok i => match nth_error (c_tokens ts) i with Some (CChar _) => true | _ => false end
  end.
Definition n_chars (ts : cset) (ps : list piece) : nat := length (filter (is_char_piece ts) ps).

(** Neighbouring tokens. *)
Fixpoint neighbours (ps : list piece) : list (nat * nat) :=
  match ps with
  | PTok i :: ((PTok j :: _) as r) => (i, j) :: neighbours r
  | _ :: r => neighbours r
  | [] => []
  end.
Definition occurs (p : nat * nat) (l : list (nat * nat)) : nat :=
  length (filter (fun q => (fst p =? fst q) && (snd p =? snd q)) l).

(** The count of a pair in a table. *)
Definition pair_count (m : list ((nat * nat) * nat)) (p : nat * nat) : nat :=
  match find (fun e => (fst p =? fst (fst e)) && (snd p =? snd (fst e))) m with
  | Some e => snd e
  | None => 0
  end.

(** ** Facts about sets *)
Record cset_ok (ts : cset) : Prop := {
  ok_by_str : forall s i, sget (c_by_str ts) s = Some i -> stands_for ts i s;
  ok_all : forall s i, stands_for ts i s -> sget (c_by_str ts) s <> None;
  ok_utf8 : forall s i, stands_for ts i s -> utf8 s
}.

Lemma stands_for_snoc ts t e m i s :
  stands_for (mkCset (c_tokens ts ++ [t]) e m) i s <->
  stands_for ts i s \/ (i = length (c_tokens ts) /\ ctoken_string t = Some s).
Proof.
  unfold stands_for. cbn [c_tokens]. split.
  - intros (t' & E & Hs). destruct (Nat.lt_ge_cases i (length (c_tokens ts))) as [H|H].
    + rewrite nth_error_app1 in E by exact H. left; eauto.
    + rewrite nth_error_app2 in E by exact H. destruct (i - length (c_tokens ts)) as [|k] eqn:Ek.
      * cbn in E. injection E as <-. right. split; [lia|exact Hs].
      * destruct k; discriminate.
  - intros [(t' & E & Hs)|(-> & Hs)].
    + exists t'. split; [|exact Hs]. rewrite nth_error_app1; [exact E|]. apply nth_error_Some. congruence.
    + exists t. split; [|exact Hs]. rewrite nth_error_app2, Nat.sub_diag by lia. reflexivity.
Qed.

Lemma cset_ok_snoc ts t s e : cset_ok ts -> ctoken_string t = Some s -> utf8 s ->
  cset_ok (mkCset (c_tokens ts ++ [t]) e (sinsert (c_by_str ts) s (length (c_tokens ts)))).
Proof.
  intros [H1 H2 H3] Ht Hu. split.
  - intros s' i. cbn [c_by_str]. rewrite sget_sinsert, stands_for_snoc.
    destruct (bstr_eqb_spec s' s) as [->|Hne]; [intros E; injection E as <-; right; auto|]. left; auto.
  - intros s' i. cbn [c_by_str]. rewrite sget_sinsert, stands_for_snoc.
    destruct (bstr_eqb_spec s' s) as [->|Hne]; [discriminate|]. intros [H|(_ & H)]; [eauto|congruence].
  - intros s' i. rewrite stands_for_snoc. intros [H|(_ & H)]; [eauto|]. assert (s' = s) by congruence. subst; exact Hu.
Qed.

Lemma utf8_one c : utf8_char c -> utf8 c.
Proof. intros H. rewrite <- (app_nil_r c). constructor; [exact H|constructor]. Qed.

Lemma built_ok ts : built ts -> cset_ok ts.
Proof.
  induction 1 as [n|ts c H IH Hc|ts c e H IH Hc|ts s H IH Hs].
  - assert (Hno : forall i s, ~ stands_for (cset_new n) i s).
    { intros i s (t & E & Ht). apply nth_error_In in E. cbn in E. apply in_map_iff in E as (k & <- & _). discriminate. }
    split; [discriminate| |]; intros s i Hs; exfalso; exact (Hno _ _ Hs).
  - cbn [fst add_char_token]. pose proof (cset_ok_snoc ts (CChar c) c (c_enc ts) IH eq_refl (utf8_one c Hc)) as [A B C].
    split; assumption.
  - destruct IH as [A B C]. split; assumption.
  - apply (cset_ok_snoc ts (CStr s) s); auto.
Qed.

Lemma max_bytes_ge ts : 4 <= max_bytes_in_token ts.
Proof.
  unfold max_bytes_in_token.
  assert (H : forall l m, m <= fold_left (fun m t => match ctoken_string t with None => m | Some s => Nat.max m (length s) end) l m).
  { induction l as [|t l IH]; intros m; cbn; [lia|]. specialize (IH (match ctoken_string t with None => m | Some s => Nat.max m (length s) end)).
    destruct (ctoken_string t); lia. }
  apply H.
Qed.

Lemma max_bytes_tok ts i s : stands_for ts i s -> length s <= max_bytes_in_token ts.
Proof.
  intros (t & E & Hs). unfold max_bytes_in_token. apply nth_error_In in E.
  assert (M : forall l m, m <= fold_left (fun m t => match ctoken_string t with None => m | Some s => Nat.max m (length s) end) l m).
  { induction l as [|x l IH]; intros m; cbn; [lia|]. specialize (IH (match ctoken_string x with None => m | Some s => Nat.max m (length s) end)).
    destruct (ctoken_string x); lia. }
  generalize 4. induction (c_tokens ts) as [|x l IH]; intros m; [destruct E|]. cbn [fold_left].
  destruct E as [->|E]; [|apply IH; exact E]. rewrite Hs.
  etransitivity; [|apply M]. lia.
Qed.

Lemma piece_utf8 ts p s : cset_ok ts -> is_piece ts p s -> utf8 s.
Proof. intros Hok [i s' H _|c H _]; [eapply ok_utf8; eauto|apply utf8_one; exact H]. Qed.
Lemma piece_nonempty ts p s : is_piece ts p s -> s <> [].
Proof. intros [i s' _ H|c H _]; [exact H|]. apply utf8_char_length in H. destruct c; [cbn in H; lia|discriminate]. Qed.
Lemma piece_max ts p s : is_piece ts p s -> length s <= max_bytes_in_token ts.
Proof.
  intros [i s' H _|c H _]; [eapply max_bytes_tok; eauto|]. apply utf8_char_length in H.
  pose proof (max_bytes_ge ts). lia.
Qed.

Lemma made_utf8 ts t ps : cset_ok ts -> made_of ts t ps -> utf8 t.
Proof. intros Hok. induction 1 as [|p s r ps Hp _ IH]; [constructor|]. apply utf8_app; [eapply piece_utf8; eauto|exact IH]. Qed.

Lemma made_app ts a ps b qs : made_of ts a ps -> made_of ts b qs -> made_of ts (a ++ b) (ps ++ qs).
Proof. induction 1 as [|p s r ps Hp _ IH]; intros H; [exact H|]. cbn. rewrite <- app_assoc. constructor; auto. Qed.

Lemma made_snoc ts a ps p s : made_of ts a ps -> is_piece ts p s -> made_of ts (a ++ s) (ps ++ [p]).
Proof. intros H1 H2. apply made_app; [exact H1|]. rewrite <- (app_nil_r s). constructor; [exact H2|constructor]. Qed.

Lemma made_snoc_inv ts t ps p : made_of ts t (ps ++ [p]) -> exists a s, t = a ++ s /\ made_of ts a ps /\ is_piece ts p s.
Proof.
  revert t; induction ps as [|q ps IH]; cbn; intros t H.
  - inversion H as [|? s r ? Hp Hr]; subst. inversion Hr; subst. exists [], s. rewrite app_nil_r. split; [reflexivity|]. split; [constructor|exact Hp].
  - inversion H as [|? s r ? Hp Hr]; subst. destruct (IH _ Hr) as (a & s' & -> & H1 & H2).
    exists (s ++ a), s'. rewrite app_assoc. split; [reflexivity|]. split; [constructor; assumption|exact H2].
Qed.

Lemma cost_app ts a b : cost ts (a ++ b) = cost ts a + cost ts b.
Proof. unfold cost. rewrite map_app, sum_app. reflexivity. Qed.
Lemma cost_snoc ts a p : cost ts (a ++ [p]) = cost ts a + piece_cost ts p.
Proof. rewrite cost_app. unfold cost. cbn. lia. Qed.

(** ** Character boundaries *)
Definition inside (bytes : bstr) (pos : nat) : bool :=
  match nth_error bytes pos with Some b => (128 <=? b2n b) && (b2n b <? 192) | None => false end.

Lemma char_head c b r : utf8_char c -> c = b :: r -> (128 <=? b2n b) && (b2n b <? 192) = false.
Proof.
  intros H E. apply andb_false_iff.
  destruct H; injection E as -> _; rewrite Nat.leb_gt, Nat.ltb_ge; lia.
Qed.

Lemma char_inside c k : utf8_char c -> 0 < k < length c -> inside c k = true.
Proof.
  intros H Hk. unfold inside.
  destruct H; cbn [length] in Hk; (destruct k as [|[|[|[|k]]]]; try lia); cbn [nth_error];
    apply andb_true_iff; rewrite Nat.leb_le, Nat.ltb_lt; lia.
Qed.

Lemma utf8_head s b r : utf8 s -> s = b :: r -> (128 <=? b2n b) && (b2n b <? 192) = false.
Proof.
  intros H E. destruct H as [|c s' Hc Hs]; [discriminate|].
  destruct c as [|b' c']; [apply utf8_char_length in Hc; cbn in Hc; lia|].
  injection E as -> _. eapply char_head; [exact Hc|reflexivity].
Qed.

Lemma inside_app_l a b k : k < length a -> inside (a ++ b) k = inside a k.
Proof. intros H. unfold inside. rewrite nth_error_app1 by exact H. reflexivity. Qed.
Lemma inside_app_r a b k : inside (a ++ b) (length a + k) = inside b k.
Proof. unfold inside. rewrite nth_error_app2 by lia. replace (length a + k - length a) with k by lia. reflexivity. Qed.

Lemma utf8_prefix s : utf8 s -> forall pos, inside s pos = false -> utf8 (firstn pos s).
Proof.
  induction 1 as [|c s Hc Hs IH]; intros pos H; [rewrite firstn_nil; constructor|].
  destruct (Nat.eq_dec pos 0) as [->|Hp]; [constructor|].
  destruct (Nat.lt_ge_cases pos (length c)) as [Hlt|Hge].
  - rewrite inside_app_l, char_inside in H; [discriminate|exact Hc|lia|exact Hlt].
  - replace pos with (length c + (pos - length c)) in * by lia. rewrite inside_app_r in H.
    rewrite firstn_app_2. constructor; [exact Hc|]. apply IH; exact H.
Qed.

Lemma utf8_last s : utf8 s -> s <> [] -> exists a c, s = a ++ c /\ utf8 a /\ utf8_char c.
Proof.
  induction 1 as [|c s Hc Hs IH]; intros H; [congruence|].
  destruct s as [|b s]; [exists [], c; rewrite app_nil_r; repeat split; [constructor|exact Hc]|].
  destruct IH as (a & c' & E & Ha & Hc'); [discriminate|]. exists (c ++ a), c'.
  rewrite E, app_assoc. split; [reflexivity|]. split; [constructor; assumption|exact Hc'].
Qed.

Lemma chars_one s c : utf8 s -> chars s = [c] <-> utf8 s /\ utf8_char c /\ s = c.
Proof.
  intros Hs. split.
  - intros E. destruct (chars_spec s Hs) as (H1 & H2). rewrite E in H1, H2. cbn in H2. rewrite app_nil_r in H2.
    inversion H1; subst. auto.
  - intros (_ & Hc & ->). pose proof (chars_cons c [] Hc) as E. rewrite app_nil_r in E. rewrite E. reflexivity.
Qed.

(** ** The forward pass *)
Section Forward.
Variable ts : cset.
Variable bytes : bstr.
Hypothesis Hok : cset_ok ts.

Definition part (a b : nat) : bstr := firstn (b - a) (skipn a bytes).

Lemma part_app a b : a <= b -> firstn b bytes = firstn a bytes ++ part a b.
Proof.
  intros H. unfold part. replace b with (a + (b - a)) at 1 by lia.
  generalize (b - a). clear. intros k. revert a. induction bytes as [|x l IH]; intros a; [rewrite !firstn_nil, skipn_nil, firstn_nil; reflexivity|].
  destruct a; cbn; [reflexivity|]. f_equal. apply IH.
Qed.

Lemma slice_part a b : a <= b -> b <= length bytes -> slice bytes a b = Ret (part a b).
Proof.
  intros H1 H2. unfold OptBytesModel.slice. rewrite (proj2 (Nat.leb_le _ _) H1), (proj2 (Nat.leb_le _ _) H2). reflexivity.
Qed.

Definition tid_piece (t : ctid) : option piece :=
  match t with TTok i => Some (PTok i) | TLit c => Some (PLit c) | _ => None end.

(** what [candidate] computes *)
Definition cand (st : cstate) (s : bstr) : option cstate :=
  match snd st with
  | TInvalid => None
  | _ => if utf8_valid s then
           match sget (c_by_str ts) s with
           | Some i => Some (fst st + 1, TTok i)
           | None => match chars s with [ch] => Some (fst st + char_cost ts ch, TLit ch) | _ => None end
           end
         else None
  end.

Lemma candidate_eq states pos from st : nth_error states from = Some st -> from <= pos -> pos <= length bytes ->
  candidate ts bytes states pos from = Ret (cand st (part from pos)).
Proof.
  intros E H1 H2. unfold candidate, cand, idx. rewrite E. destruct st as (c, t). cbn [unwrap bind fst snd].
  destruct t; try reflexivity; rewrite slice_part by assumption; cbn [bind];
    destruct (utf8_valid _); try reflexivity; destruct (sget _ _); try reflexivity;
    destruct (chars _) as [|? [|? ?]]; reflexivity.
Qed.

Lemma cand_piece st s c t : s <> [] -> cand st s = Some (c, t) ->
  snd st <> TInvalid /\ t <> TInvalid /\ exists p, tid_piece t = Some p /\ is_piece ts p s /\ c = fst st + piece_cost ts p.
Proof.
  intros Hne E. unfold cand in E. assert (Hv : snd st <> TInvalid) by (intros E'; rewrite E' in E; discriminate).
  split; [exact Hv|]. destruct (snd st) eqn:Es; try congruence;
    (destruct (utf8_valid s) eqn:Eu; [|discriminate]; apply utf8_valid_spec in Eu;
     destruct (sget (c_by_str ts) s) as [j|] eqn:Eg;
     [ injection E as <- <-; split; [discriminate|]; exists (PTok j); split; [reflexivity|]; split; [|reflexivity];
       constructor; [apply (ok_by_str ts Hok); exact Eg|exact Hne]
     | destruct (chars s) as [|ch [|? ?]] eqn:Ec; try discriminate; injection E as <- <-; split; [discriminate|];
       exists (PLit ch); split; [reflexivity|]; split; [|reflexivity];
       apply (chars_one s ch Eu) in Ec as (_ & Hc & ->); constructor; [exact Hc|];
       intros k Hk; exact (ok_all ts Hok _ _ Hk Eg) ]).
Qed.

Lemma piece_cand st s p : snd st <> TInvalid -> is_piece ts p s ->
  exists c t, cand st s = Some (c, t) /\ c = fst st + piece_cost ts p.
Proof.
  intros Hv Hp. pose proof (piece_utf8 ts p s Hok Hp) as Hu. unfold cand.
  rewrite (proj2 (utf8_valid_spec s) Hu).
  assert (E : exists c t, match sget (c_by_str ts) s with
           | Some i => Some (fst st + 1, TTok i)
           | None => match chars s with [ch] => Some (fst st + char_cost ts ch, TLit ch) | _ => None end
           end = Some (c, t) /\ c = fst st + piece_cost ts p).
  { inversion Hp as [i s' H Hne E1 E2|c H Hno E1 E2]; subst.
    - destruct (sget (c_by_str ts) s) as [j|] eqn:Eg; [eexists _, _; split; reflexivity|].
      exfalso. exact (ok_all ts Hok _ _ H Eg).
    - destruct (sget (c_by_str ts) s) as [j|] eqn:Eg.
      { exfalso. apply (Hno j). apply (ok_by_str ts Hok). exact Eg. }
      rewrite (proj2 (chars_one s s Hu)) by auto. eexists _, _; split; reflexivity. }
  destruct (snd st) eqn:Es; try congruence; exact E.
Qed.

(** the fold that keeps the best candidate *)
Lemma best_fold (f : nat -> outcome (option cstate)) (g : nat -> option cstate) l : (forall x, In x l -> f x = Ret (g x)) ->
  forall best, exists r,
  mfold (fun best from =>
           c <- f from ;;
           match c with
           | None => Ret best
           | Some c => match best with None => Ret (Some c) | Some b => if fst c <? fst b then Ret (Some c) else Ret best end
           end) l best = Ret r /\
  (forall b, r = Some b -> best = Some b \/ exists x, In x l /\ g x = Some b) /\
  (forall b, r = Some b -> (forall x c, In x l -> g x = Some c -> fst b <= fst c) /\ (forall b0, best = Some b0 -> fst b <= fst b0)) /\
  (r = None -> best = None /\ forall x, In x l -> g x = None).
Proof.
  induction l as [|x l IH]; intros Hf best.
  - exists best. split; [reflexivity|]. split; [auto|]. split; [|intros ->; split; [reflexivity|intros y []]].
    intros b ->. split; [intros y c []|]. intros b0 E. injection E as ->. lia.
  - cbn [mfold]. rewrite (Hf x) by (left; reflexivity). cbn [bind].
    set (best' := match g x with None => best | Some c => match best with None => Some c | Some b => if fst c <? fst b then Some c else best end end).
    assert (Eb : match g x with
           | None => Ret best
           | Some c => match best with None => Ret (Some c) | Some b => if fst c <? fst b then Ret (Some c) else Ret best end
           end = Ret best').
    { unfold best'. destruct (g x); [|reflexivity]. destruct best; [destruct (_ <? _)|]; reflexivity. }
    rewrite Eb. cbn [bind]. destruct (IH (fun y Hy => Hf y (or_intror Hy)) best') as (r & E & A & B & C).
    assert (P1 : forall b, best' = Some b -> best = Some b \/ g x = Some b).
    { unfold best'. intros b. destruct (g x) as [c|]; [|auto]. destruct best as [b0|]; [destruct (_ <? _)|]; auto. }
    assert (P2 : forall c, g x = Some c -> exists b, best' = Some b /\ fst b <= fst c).
    { unfold best'. intros c ->. destruct best as [b0|]; [destruct (Nat.ltb_spec (fst c) (fst b0))|]; eexists; split; try reflexivity; lia. }
    assert (P3 : forall b0, best = Some b0 -> exists b, best' = Some b /\ fst b <= fst b0).
    { unfold best'. intros b0 ->. destruct (g x) as [c|]; [destruct (Nat.ltb_spec (fst c) (fst b0))|]; eexists; split; try reflexivity; lia. }
    exists r. split; [exact E|]. split; [|split].
    + intros b Hb. destruct (A b Hb) as [H|(y & Hy & H)]; [|right; exists y; split; [right; exact Hy|exact H]].
      destruct (P1 b H) as [H'|H']; [left; exact H'|right; exists x; split; [left; reflexivity|exact H']].
    + intros b Hb. destruct (B b Hb) as (B1 & B2). split.
      * intros y c [<-|Hy] Hc; [|eapply B1; eauto]. destruct (P2 c Hc) as (b' & Hb' & Hle). specialize (B2 b' Hb'). lia.
      * intros b0 H0. destruct (P3 b0 H0) as (b' & Hb' & Hle). specialize (B2 b' Hb'). lia.
    + intros Hr. destruct (C Hr) as (C1 & C2). split.
      * destruct best as [b0|]; [|reflexivity]. destruct (P3 b0 eq_refl) as (b' & Hb' & _). congruence.
      * intros y [<-|Hy]; [|auto]. destruct (g x) as [c|] eqn:Eg; [|reflexivity].
        destruct (P2 c eq_refl) as (b' & Hb' & _). congruence.
Qed.

(** The state of position [q] is right, given the ones before. *)
Definition entry_ok (states : list cstate) (q : nat) (st : cstate) : Prop :=
  match q with
  | 0 => st = (0, TStart)
  | _ =>
      if inside bytes q then snd st = TInvalid
      else
        (exists q' st' p, q' < q /\ nth_error states q' = Some st' /\ snd st' <> TInvalid /\
           tid_piece (snd st) = Some p /\ is_piece ts p (part q' q) /\ fst st = fst st' + piece_cost ts p) /\
        (forall q' st' p, q' < q -> nth_error states q' = Some st' -> snd st' <> TInvalid ->
           is_piece ts p (part q' q) -> fst st <= fst st' + piece_cost ts p)
  end.

Definition states_ok (states : list cstate) (n : nat) : Prop :=
  length states = S n /\ forall q st, nth_error states q = Some st -> entry_ok states q st.

Lemma entry_ok_app states more q st : q <= length states -> entry_ok states q st -> entry_ok (states ++ more) q st.
Proof.
  intros Hq H. unfold entry_ok in *. destruct q as [|q]; [exact H|]. destruct (inside bytes (S q)); [exact H|].
  destruct H as ((q' & st' & p & H1 & H2 & H3) & H4). split.
  - exists q', st', p. split; [exact H1|]. split; [|exact H3]. rewrite nth_error_app1; [exact H2|]. apply nth_error_Some; congruence.
  - intros q0 st0 p0 Hq0 E0. apply H4; [exact Hq0|]. rewrite nth_error_app1 in E0 by lia. exact E0.
Qed.

Lemma entry_valid states q st : entry_ok states q st -> (snd st = TInvalid <-> q <> 0 /\ inside bytes q = true).
Proof.
  unfold entry_ok. destruct q as [|q]; [intros ->; cbn; split; [discriminate|intros ([] & _); reflexivity]|].
  destruct (inside bytes (S q)); [intros H; split; [split; [discriminate|reflexivity]|intros _; exact H]|].
  intros ((q' & st' & p & _ & _ & _ & H & _) & _). split; [intros E; rewrite E in H; discriminate|intros (_ & E); discriminate].
Qed.

Lemma part_nonempty a b : a < b -> b <= length bytes -> part a b <> [].
Proof. intros H1 H2 E. apply (f_equal (@length _)) in E. unfold part in E. rewrite firstn_length, skipn_length in E. cbn in E. lia. Qed.

Lemma part_length a b : a <= b -> b <= length bytes -> length (part a b) = b - a.
Proof. intros H1 H2. unfold part. rewrite firstn_length, skipn_length. lia. Qed.

Lemma forward_step_ok states n : states_ok states n -> n < length bytes ->
  (exists st, forward_step ts bytes (max_bytes_in_token ts) states (S n) = Ret (states ++ [st]) /\ states_ok (states ++ [st]) (S n)) \/
  (forward_step ts bytes (max_bytes_in_token ts) states (S n) = Panic /\ inside bytes (S n) = false /\
   forall q st p, q <= n -> nth_error states q = Some st -> snd st <> TInvalid -> ~ is_piece ts p (part q (S n))).
Proof.
  intros (Hl & Hst) Hn. set (mx := max_bytes_in_token ts). unfold forward_step. fold (inside bytes (S n)).
  assert (Hnew : forall st, entry_ok states (S n) st -> states_ok (states ++ [st]) (S n)).
  { intros st Hs. split; [rewrite app_length; cbn; lia|]. intros q st' E.
    destruct (Nat.lt_ge_cases q (length states)) as [H|H].
    - apply entry_ok_app; [lia|]. apply Hst. rewrite nth_error_app1 in E by exact H. exact E.
    - rewrite nth_error_app2 in E by exact H. destruct (q - length states) as [|k] eqn:Ek; [|destruct k; discriminate].
      cbn in E. injection E as <-. replace q with (S n) by lia. apply entry_ok_app; [lia|exact Hs]. }
  destruct (inside bytes (S n)) eqn:Ein.
  { left. eexists. split; [reflexivity|]. apply Hnew. unfold entry_ok. rewrite Ein. reflexivity. }
  set (g := fun from => match nth_error states from with Some st => cand st (part from (S n)) | None => None end).
  destruct (best_fold (candidate ts bytes states (S n)) g (seq (S n - mx) (S n - (S n - mx)))) with (best := @None cstate)
    as (r & E & A & B & C).
  { intros x Hx. apply in_seq in Hx. unfold g. destruct (nth_error states x) as [st|] eqn:Ex.
    - apply candidate_eq; [exact Ex|lia|lia].
    - apply nth_error_None in Ex. lia. }
  assert (E' : best_end ts bytes mx states (S n) = Ret r) by exact E.
  rewrite E'. cbn [bind]. destruct r as [b|]; cbn [unwrap bind].
  - left. exists b. split; [reflexivity|]. apply Hnew. unfold entry_ok. rewrite Ein.
    destruct (B b eq_refl) as (Bm & _). destruct (A b eq_refl) as [H|(x & Hx & H)]; [discriminate|]. split.
    + apply in_seq in Hx. unfold g in H. destruct (nth_error states x) as [st|] eqn:Ex; [|discriminate].
      destruct b as (c, t). destruct (cand_piece _ _ _ _ (part_nonempty x (S n) ltac:(lia) ltac:(lia)) H) as (H1 & H2 & p & H3 & H4 & H5).
      exists x, st, p. split; [lia|]. auto.
    + intros q st p Hq Eq Hv Hp.
      assert (Hin : In q (seq (S n - mx) (S n - (S n - mx)))).
      { apply in_seq. pose proof (piece_max _ _ _ Hp) as Hm. rewrite part_length in Hm by lia. fold mx in Hm. lia. }
      destruct (piece_cand st _ p Hv Hp) as (c & t & Ec & Hc).
      specialize (Bm q (c, t) Hin). unfold g in Bm. rewrite Eq in Bm. specialize (Bm Ec). cbn in Bm. lia.
  - right. split; [reflexivity|]. split; [reflexivity|]. intros q st p Hq Eq Hv Hp. destruct (C eq_refl) as (_ & C2).
    assert (Hin : In q (seq (S n - mx) (S n - (S n - mx)))).
    { apply in_seq. pose proof (piece_max _ _ _ Hp) as Hm. rewrite part_length in Hm by lia. fold mx in Hm. lia. }
    destruct (piece_cand st _ p Hv Hp) as (c & t & Ec & Hc). specialize (C2 q Hin). unfold g in C2. rewrite Eq in C2. congruence.
Qed.

(** Soundness and optimality of the states. *)
Inductive chain (states : list cstate) : nat -> list piece -> Prop :=
| chain_0 : chain states 0 []
| chain_S q st p s ps : nth_error states (q + length s) = Some st -> tid_piece (snd st) = Some p ->
    is_piece ts p s -> chain states q ps -> chain states (q + length s) (ps ++ [p]).

Lemma states_sound states n : states_ok states n -> n <= length bytes -> forall q st, q <= n -> nth_error states q = Some st -> snd st <> TInvalid ->
  exists ps, chain states q ps /\ made_of ts (firstn q bytes) ps /\ cost ts ps = fst st.
Proof.
  intros (Hl & Hst) Hn q. induction q as [q IH] using lt_wf_ind. intros st Hq E Hv.
  pose proof (Hst q st E) as H. destruct q as [|q].
  - cbn in H. subst. exists []. split; [constructor|]. split; [constructor|reflexivity].
  - pose proof (entry_valid _ _ _ H) as Hval. unfold entry_ok in H. destruct (inside bytes (S q)) eqn:Ein; [exfalso; apply Hv; exact H|].
    destruct H as ((q' & st' & p & H1 & H2 & H3 & H4 & H5 & H6) & _).
    destruct (IH q' H1 st') as (ps & Hc & Hm & Hcost); [lia|exact H2|exact H3|].
    exists (ps ++ [p]). pose proof (part_length q' (S q) ltac:(lia) ltac:(lia)) as Hpl.
    split; [|split].
    + replace (S q) with (q' + length (part q' (S q))) by lia. econstructor; eauto.
      rewrite Hpl. replace (q' + (S q - q')) with (S q) by lia. exact E.
    + rewrite (part_app q' (S q)) by lia. apply made_snoc; assumption.
    + rewrite cost_snoc. lia.
Qed.

Lemma states_optimal states n : states_ok states n -> n <= length bytes -> forall ps q st, q <= n -> nth_error states q = Some st ->
  made_of ts (firstn q bytes) ps -> inside bytes q = false -> fst st <= cost ts ps.
Proof.
  intros (Hl & Hst) Hn ps. induction ps as [|p ps IH] using rev_ind; intros q st Hq E Hm Hin.
  - destruct q as [|q]; [specialize (Hst 0 st E); cbn in Hst; subst; cbn; lia|].
    exfalso. remember (firstn (S q) bytes) as t eqn:Et. inversion Hm as [Z|]. rewrite <- Z in Et.
    apply (f_equal (@length _)) in Et. rewrite firstn_length in Et. cbn [length] in Et. lia.
  - apply made_snoc_inv in Hm as (a & s & Ea & Hma & Hp).
    assert (Hla : length a + length s = q).
    { rewrite <- app_length, <- Ea, firstn_length. lia. }
    assert (Hs : s <> []) by (eapply piece_nonempty; eauto).
    assert (Hs1 : 0 < length s) by (destruct s; [congruence|cbn; lia]).
    assert (Efa : firstn (length a) bytes = a).
    { replace (firstn (length a) bytes) with (firstn (length a) (firstn q bytes)) by (rewrite firstn_firstn; f_equal; lia).
      rewrite Ea. rewrite firstn_app, Nat.sub_diag, firstn_all. cbn. apply app_nil_r. }
    assert (Eps : part (length a) q = s).
    { pose proof (part_app (length a) q ltac:(lia)) as Ep. rewrite Efa, Ea in Ep. apply app_inv_head in Ep. auto. }
    destruct (nth_error states (length a)) as [st'|] eqn:E'; [|apply nth_error_None in E'; lia].
    assert (Hina : inside bytes (length a) = false).
    { rewrite <- (firstn_skipn q bytes), Ea, inside_app_l by (rewrite app_length; lia).
      rewrite <- (Nat.add_0_r (length a)), inside_app_r. destruct s as [|b s']; [congruence|].
      unfold inside. cbn [nth_error]. eapply utf8_head; [eapply piece_utf8; eauto|reflexivity]. }
    assert (Hv : snd st' <> TInvalid).
    { pose proof (entry_valid _ _ _ (Hst _ _ E')) as Hev. rewrite Hev. intros (_ & Ht). congruence. }
    rewrite cost_snoc. specialize (IH (length a) st' ltac:(lia) E').
    rewrite Efa in IH. specialize (IH Hma Hina).
    destruct q as [|q]; [lia|]. specialize (Hst (S q) st E). unfold entry_ok in Hst. rewrite Hin in Hst.
    destruct Hst as (_ & Hmin). specialize (Hmin (length a) st' p ltac:(lia) E' Hv). rewrite Eps in Hmin. specialize (Hmin Hp). lia.
Qed.

Lemma forward_from n : forall k states, states_ok states k -> k + n = length bytes ->
  (exists r, mfold (forward_step ts bytes (max_bytes_in_token ts)) (seq (S k) n) states = Ret r /\ states_ok r (length bytes)) \/
  (mfold (forward_step ts bytes (max_bytes_in_token ts)) (seq (S k) n) states = Panic /\ ~ utf8 bytes).
Proof.
  induction n as [|n IH]; intros k states Hs Hk.
  - left. exists states. cbn. split; [reflexivity|]. replace (length bytes) with k by lia. exact Hs.
  - cbn [seq mfold]. destruct (forward_step_ok states k Hs ltac:(lia)) as [(st & E & Hs')|(E & Hin & Hno)].
    + rewrite E. cbn [bind]. apply IH; [exact Hs'|lia].
    + rewrite E. cbn [bind]. right. split; [reflexivity|]. intros Hu.
      pose proof (utf8_prefix bytes Hu (S k) Hin) as Hp.
      destruct (utf8_last _ Hp) as (a & c & Ea & Ha & Hc).
      { intros E0. apply (f_equal (@length _)) in E0. rewrite firstn_length in E0. cbn [length] in E0. lia. }
      assert (Hlen : length a + length c = S k) by (rewrite <- app_length, <- Ea, firstn_length; lia).
      pose proof (utf8_char_length c Hc) as Hc14.
      assert (Efa : firstn (length a) bytes = a).
      { replace (firstn (length a) bytes) with (firstn (length a) (firstn (S k) bytes)) by (rewrite firstn_firstn; f_equal; lia).
        rewrite Ea. rewrite firstn_app, Nat.sub_diag, firstn_all. cbn. apply app_nil_r. }
      assert (Eps : part (length a) (S k) = c).
      { pose proof (part_app (length a) (S k) ltac:(lia)) as Ep. rewrite Efa, Ea in Ep. apply app_inv_head in Ep. auto. }
      destruct Hs as (Hl & Hst).
      destruct (nth_error states (length a)) as [st'|] eqn:E'; [|apply nth_error_None in E'; lia].
      assert (Hina : inside bytes (length a) = false).
      { rewrite <- (firstn_skipn (S k) bytes), Ea, inside_app_l by (rewrite app_length; lia).
        rewrite <- (Nat.add_0_r (length a)), inside_app_r. destruct c as [|b c']; [cbn in Hc14; lia|].
        unfold inside. cbn [nth_error]. eapply char_head; [exact Hc|reflexivity]. }
      assert (Hv : snd st' <> TInvalid).
      { pose proof (entry_valid _ _ _ (Hst _ _ E')) as Hev. rewrite Hev. intros (_ & Ht). congruence. }
      destruct (sget (c_by_str ts) c) as [i|] eqn:Eg.
      * apply (Hno (length a) st' (PTok i) ltac:(lia) E' Hv). rewrite Eps. constructor; [apply (ok_by_str ts Hok); exact Eg|].
        intros ->. cbn in Hc14. lia.
      * apply (Hno (length a) st' (PLit c) ltac:(lia) E' Hv). rewrite Eps. constructor; [exact Hc|].
        intros i Hi. exact (ok_all ts Hok _ _ Hi Eg).
Qed.

End Forward.

(** ** The walk back *)
Definition trunc (p : piece) : piece := match p with PTok i => PTok (as_u16 i) | PLit c => PLit c end.
Definition tail_piece (next : option nat) : list piece := match next with Some n => [PTok n] | None => [] end.

Lemma neighbours_cons p q r : neighbours (p :: q :: r) =
  match p, q with PTok i, PTok j => [(i, j)] | _, _ => [] end ++ neighbours (q :: r).
Proof. destruct p, q; reflexivity. Qed.

Lemma neighbours_tok l i n : neighbours (l ++ [PTok i; PTok n]) = neighbours (l ++ [PTok i]) ++ [(i, n)].
Proof.
  induction l as [|p l IH]; [reflexivity|]. cbn [app].
  destruct l as [|q l]; [destruct p; reflexivity|]. cbn [app] in *. rewrite !neighbours_cons, IH, app_assoc. reflexivity.
Qed.

Lemma neighbours_lit l c next : neighbours (l ++ PLit c :: tail_piece next) = neighbours l.
Proof.
  induction l as [|p l IH]; [destruct next; reflexivity|]. cbn [app].
  destruct l as [|q l]; [destruct p, next; reflexivity|]. cbn [app] in *. rewrite !neighbours_cons, IH. reflexivity.
Qed.

Lemma occurs_app p a b : occurs p (a ++ b) = occurs p a + occurs p b.
Proof. unfold occurs. rewrite filter_app, app_length. reflexivity. Qed.

Lemma pair_count_add m p k q : pair_count (pair_add m p k) q = pair_count m q + (if (fst q =? fst p) && (snd q =? snd p) then k else 0).
Proof.
  unfold pair_count. induction m as [|(r, n) m IH]; cbn [pair_add find fst snd].
  - destruct ((fst q =? fst p) && (snd q =? snd p)); reflexivity.
  - destruct ((fst p =? fst r) && (snd p =? snd r)) eqn:E; cbn [find fst snd].
    + apply andb_true_iff in E as (E1 & E2). apply Nat.eqb_eq in E1, E2. rewrite <- E1, <- E2.
      destruct ((fst q =? fst p) && (snd q =? snd p)); cbn; lia.
    + destruct ((fst q =? fst r) && (snd q =? snd r)) eqn:E'; [|exact IH].
      apply andb_true_iff in E' as (E1 & E2). apply Nat.eqb_eq in E1, E2.
      destruct ((fst q =? fst p) && (snd q =? snd p)) eqn:E''; [|cbn; lia].
      apply andb_true_iff in E'' as (E3 & E4). apply Nat.eqb_eq in E3, E4. exfalso.
      rewrite <- E3, <- E4, E1, E2, !Nat.eqb_refl in E. discriminate.
Qed.

(** a table without double entries and without zeros *)
Definition table_ok (m : list ((nat * nat) * nat)) : Prop :=
  NoDup (map fst m) /\ forall e, In e m -> 1 <= snd e.

Lemma pair_add_keys m p k q : In q (map fst (pair_add m p k)) <-> q = p \/ In q (map fst m).
Proof.
  induction m as [|(r, n) m IH]; cbn [pair_add map fst In]; [intuition congruence|].
  destruct ((fst p =? fst r) && (snd p =? snd r)) eqn:E; cbn [map fst In].
  - apply andb_true_iff in E as (E1 & E2). apply Nat.eqb_eq in E1, E2. destruct p, r; cbn in *; subst. intuition congruence.
  - rewrite IH. intuition.
Qed.

Lemma pair_add_ok m p k : 1 <= k -> table_ok m -> table_ok (pair_add m p k).
Proof.
  intros Hk (H1 & H2). induction m as [|(r, n) m IH]; cbn [pair_add].
  - split; [repeat constructor; intros []|]. intros e [<-|[]]. exact Hk.
  - cbn [map fst] in H1. inversion H1 as [|? ? Hx Hn]; subst.
    destruct ((fst p =? fst r) && (snd p =? snd r)) eqn:E.
    + split; [exact H1|]. intros e [<-|He]; [|apply H2; right; exact He]. cbn. specialize (H2 (r, n) (or_introl eq_refl)). cbn in H2. lia.
    + destruct IH as (A & B); [exact Hn|intros e He; apply H2; right; exact He|]. split.
      * cbn [map fst]. constructor; [|exact A]. rewrite pair_add_keys. intros [->|Hi]; [rewrite !Nat.eqb_refl in E; discriminate|auto].
      * intros e [<-|He]; [apply H2; left; reflexivity|auto].
Qed.

Lemma pair_count_in m p k : NoDup (map fst m) -> In (p, k) m -> pair_count m p = k.
Proof.
  unfold pair_count. induction m as [|(r, n) m IH]; intros H1 Hi; [destruct Hi|].
  cbn [map fst] in H1. inversion H1 as [|? ? Hx Hn]; subst. cbn [find fst snd].
  destruct Hi as [E|Hi].
  - injection E as -> ->. rewrite !Nat.eqb_refl. reflexivity.
  - destruct ((fst p =? fst r) && (snd p =? snd r)) eqn:E; [|apply IH; assumption].
    apply andb_true_iff in E as (E1 & E2). apply Nat.eqb_eq in E1, E2. exfalso. apply Hx.
    apply (in_map fst) in Hi. destruct p, r; cbn in *; subst. exact Hi.
Qed.

Lemma pair_count_pos m p : 1 <= pair_count m p -> In (p, pair_count m p) m.
Proof.
  unfold pair_count. destruct (find _ m) as [(q, k)|] eqn:E; [|cbn; lia]. intros _.
  apply find_some in E as (H & E). apply andb_true_iff in E as (E1 & E2). apply Nat.eqb_eq in E1, E2. cbn in *.
  destruct p, q; cbn in *; subst. exact H.
Qed.

Lemma n_chars_app ts a b : n_chars ts (a ++ b) = n_chars ts a + n_chars ts b.
Proof. unfold n_chars. rewrite filter_app, app_length. reflexivity. Qed.

Lemma walk_back_S fuel states pos next s : 0 < pos -> walk_back (S fuel) states pos next s =
  ('(_, tid) <- idx states pos ;;
          match tid with
          | TTok i =>
              s <- count_token s i ;;
              let s := match next with
                       | Some n => mkCstats (cst_set s) (cst_total s) (cst_literals s)
                                            (pair_add (cst_pairs s) (as_u16 i, n) 1)
                       | None => s
                       end in
              t <- idx (c_tokens (cst_set s)) i ;;
              l <- bytes_len t ;;
              pos' <- checked_sub pos l ;;
              walk_back fuel states pos' (Some (as_u16 i)) s
          | TLit ch =>
              pos' <- checked_sub pos (length ch) ;;
              walk_back fuel states pos' None (count_literal s ch)
          | TInvalid | TStart => Panic
          end).
Proof. destruct pos; [lia|reflexivity]. Qed.

Lemma walk_back_ok ts states : forall q ps, chain ts states q ps -> forall fuel next s, q <= fuel -> cst_set s = ts ->
  table_ok (cst_pairs s) ->
  exists r, walk_back fuel states q next s = Ret r /\ cst_set r = ts /\
    cst_total r = cst_total s + cost ts ps /\ cst_literals r = cst_literals s + n_chars ts ps /\
    table_ok (cst_pairs r) /\
    forall p, pair_count (cst_pairs r) p = pair_count (cst_pairs s) p + occurs p (neighbours (map trunc ps ++ tail_piece next)).
Proof.
  induction 1 as [|q st p s ps E Htid Hp Hc IH]; intros fuel next s0 Hf Hset Htab.
  - exists s0. destruct fuel; (split; [reflexivity|]); split; auto; (split; [unfold cost; cbn; lia|]); (split; [cbn; lia|]); (split; [exact Htab|]);
      intros p; destruct next; cbn; lia.
  - pose proof (piece_nonempty _ _ _ Hp) as Hne. assert (Hl : 0 < length s) by (destruct s; [congruence|cbn; lia]).
    destruct fuel as [|fuel]; [lia|]. rewrite walk_back_S by lia. unfold idx at 1. rewrite E. cbn [unwrap bind].
    destruct st as (c, tid). cbn [snd] in Htid. destruct tid as [i|ch| |]; try discriminate; cbn in Htid; injection Htid as <-.
    + inversion Hp as [i' s' (t & Et & Hs) Hne' E1 E2|]; subst i' s'.
      assert (Ebl : bytes_len t = Ret (length s)) by (destruct t; cbn in Hs |- *; congruence).
      unfold count_token, idx. rewrite Hset, Et. cbn [unwrap bind cst_set cst_total cst_literals cst_pairs].
      set (s1 := match next with
                 | Some n => mkCstats ts (cst_total s0 + 1) (cst_literals s0 + match t with CChar _ => 1 | _ => 0 end)
                                      (pair_add (cst_pairs s0) (as_u16 i, n) 1)
                 | None => mkCstats ts (cst_total s0 + 1) (cst_literals s0 + match t with CChar _ => 1 | _ => 0 end) (cst_pairs s0)
                 end).
      assert (Hs1 : cst_set s1 = ts /\ cst_total s1 = cst_total s0 + 1 /\
                    cst_literals s1 = cst_literals s0 + (match t with CChar _ => 1 | _ => 0 end) /\ table_ok (cst_pairs s1) /\
                    forall p, pair_count (cst_pairs s1) p = pair_count (cst_pairs s0) p +
                      occurs p match next with Some n => [(as_u16 i, n)] | None => [] end).
      { unfold s1. destruct next as [n|]; cbn [cst_set cst_total cst_literals cst_pairs];
          (split; [reflexivity|]); (split; [reflexivity|]); (split; [reflexivity|]); split.
        - apply pair_add_ok; [lia|exact Htab].
        - intros p. rewrite pair_count_add. unfold occurs. cbn [filter fst snd].
          destruct ((fst p =? as_u16 i) && (snd p =? n)); reflexivity.
        - exact Htab.
        - intros p. unfold occurs. cbn. lia. }
      destruct Hs1 as (Q1 & Q2 & Q3 & Q4 & Q5). rewrite Q1, Et. cbn [unwrap bind]. rewrite Ebl. cbn [bind].
      rewrite checked_sub_le by lia. cbn [bind]. replace (q + length s - length s) with q by lia.
      destruct (IH fuel (Some (as_u16 i)) s1) as (r & Er & R1 & R2 & R3 & R4 & R5); [lia|exact Q1|exact Q4|].
      exists r. split; [exact Er|]. split; [exact R1|]. split; [rewrite R2, Q2, cost_snoc; cbn; lia|].
      split; [|split; [exact R4|]].
      * assert (Hn1 : n_chars ts [PTok i] = match t with CChar _ => 1 | _ => 0 end)
          by (unfold n_chars; cbn; rewrite Et; destruct t; reflexivity).
        rewrite R3, Q3, n_chars_app, Hn1. lia.
      * intros p. rewrite R5, Q5, map_app. cbn [map trunc]. rewrite <- app_assoc. cbn [app].
        destruct next as [n|]; cbn [tail_piece].
        -- rewrite neighbours_tok, occurs_app. lia.
        -- unfold occurs at 1. cbn [filter length]. lia.
    + inversion Hp; subst. rewrite checked_sub_le by lia. cbn [bind].
      replace (q + length s - length s) with q by lia.
      destruct (IH fuel None (count_literal s0 s)) as (r & Er & R1 & R2 & R3 & R4 & R5); [lia|reflexivity|exact Htab|].
      exists r. split; [exact Er|]. split; [exact R1|]. split; [rewrite R2, cost_snoc; cbn; lia|].
      split; [|split; [exact R4|]].
      * rewrite R3, n_chars_app. unfold count_literal. cbn. lia.
      * intros p. rewrite R5. unfold count_literal. cbn [cst_pairs]. rewrite map_app. cbn [map trunc]. rewrite <- app_assoc. cbn [app].
        rewrite neighbours_lit. cbn [tail_piece]. rewrite app_nil_r. lia.
Qed.

Lemma inside_end bytes : inside bytes (length bytes) = false.
Proof. unfold inside. rewrite (proj2 (nth_error_None _ _)) by lia. reflexivity. Qed.

Lemma process_slice_ok ts text : cset_ok ts -> utf8 text ->
  exists st ps, process_slice ts text = Ret st /\ made_of ts text ps /\
    (forall ps', made_of ts text ps' -> cost ts ps <= cost ts ps') /\
    cst_set st = ts /\ cst_total st = cost ts ps /\ cst_literals st = n_chars ts ps /\ table_ok (cst_pairs st) /\
    forall p, pair_count (cst_pairs st) p = occurs p (neighbours (map trunc ps)).
Proof.
  intros Hok Hu. unfold process_slice.
  destruct (forward_from ts text Hok (length text) 0 [(0, TStart)]) as [(states & E & Hs)|(_ & H)]; [|reflexivity| |contradiction].
  { split; [reflexivity|]. intros [|q] st Eq; [cbn in Eq; injection Eq as <-; reflexivity|destruct q; discriminate]. }
  rewrite E. cbn [bind]. pose proof Hs as (Hl & Hst).
  destruct (nth_error states (length text)) as [st|] eqn:Est; [|apply nth_error_None in Est; lia].
  assert (Hv : snd st <> TInvalid).
  { rewrite (entry_valid ts text _ _ _ (Hst _ _ Est)). intros (_ & H). rewrite inside_end in H. discriminate. }
  destruct (states_sound ts text states _ Hs (le_n _) _ st (le_n _) Est Hv) as (ps & Hc & Hm & Hcost).
  rewrite firstn_all in Hm.
  destruct (walk_back_ok ts states _ _ Hc (length text) None (cstats_new ts) (le_n _) eq_refl) as (r & Er & R1 & R2 & R3 & R4 & R5).
  { split; [constructor|intros e []]. }
  exists r, ps. split; [exact Er|]. split; [exact Hm|]. split.
  - intros ps' Hm'. rewrite Hcost. eapply (states_optimal ts text Hok states _ Hs (le_n _)); [apply le_n|exact Est| |apply inside_end].
    rewrite firstn_all. exact Hm'.
  - split; [exact R1|]. split; [exact R2|]. split; [exact R3|]. split; [exact R4|].
    intros p. rewrite R5. cbn [tail_piece cstats_new cst_pairs]. rewrite app_nil_r. reflexivity.
Qed.

Lemma process_slice_panic ts text : cset_ok ts -> ~ utf8 text -> process_slice ts text = Panic.
Proof.
  intros Hok Hu. unfold process_slice.
  destruct (forward_from ts text Hok (length text) 0 [(0, TStart)]) as [(states & E & Hs)|(E & _)]; [|reflexivity| |].
  { split; [reflexivity|]. intros [|q] st Eq; [cbn in Eq; injection Eq as <-; reflexivity|destruct q; discriminate]. }
  - exfalso. apply Hu. pose proof Hs as (Hl & Hst).
    destruct (nth_error states (length text)) as [st|] eqn:Est; [|apply nth_error_None in Est; lia].
    assert (Hv : snd st <> TInvalid).
    { rewrite (entry_valid ts text _ _ _ (Hst _ _ Est)). intros (_ & H). rewrite inside_end in H. discriminate. }
    destruct (states_sound ts text states _ Hs (le_n _) _ st (le_n _) Est Hv) as (ps & _ & Hm & _).
    rewrite firstn_all in Hm. eapply made_utf8; eauto.
  - rewrite E. reflexivity.
Qed.

Lemma trunc_small n ps : (N.of_nat n <= 2 ^ 16)%N -> (forall i, In (PTok i) ps -> i < n) -> map trunc ps = ps.
Proof.
  intros Hn H. induction ps as [|p ps IH]; [reflexivity|]. cbn [map]. rewrite IH by (intros i Hi; apply H; right; exact Hi).
  f_equal. destruct p as [i|c]; [|reflexivity]. cbn. f_equal. specialize (H i (or_introl eq_refl)).
  unfold as_u16. rewrite N.mod_small, Nat2N.id; [reflexivity|]. change (2 ^ 16)%N with 65536%N in Hn. lia.
Qed.

Lemma made_small ts t ps i : made_of ts t ps -> In (PTok i) ps -> i < length (c_tokens ts).
Proof.
  induction 1 as [|p s r ps Hp _ IH]; intros Hi; [destruct Hi|]. destruct Hi as [->|Hi]; [|auto].
  inversion Hp as [? ? (t & E & _) _|]; subst. apply nth_error_Some. congruence.
Qed.

(** C72.  For every set the module can build and every byte string: if the
    string is valid text, tokenization returns; the total is the least number
    of tokens over all ways to make the text of pieces; it is the cost of one
    such way, whose single characters are counted as literals and whose
    neighbouring tokens are counted as pairs (exactly, if there are at most
    2^16 tokens).  If the string is not valid text, tokenization panics. *)
Theorem C72_chars_tokenizer : forall ts text, built ts ->
  (utf8 text -> exists st ps, process_slice ts text = Ret st /\ made_of ts text ps /\
     (forall ps', made_of ts text ps' -> cost ts ps <= cost ts ps') /\
     cst_total st = cost ts ps /\ cst_literals st = n_chars ts ps /\
     ((N.of_nat (length (c_tokens ts)) <= 2 ^ 16)%N ->
        forall p, pair_count (cst_pairs st) p = occurs p (neighbours ps))) /\
  (~ utf8 text -> process_slice ts text = Panic).
Proof.
  intros ts text Hb. apply built_ok in Hb. split; [|apply process_slice_panic; exact Hb].
  intros Hu. destruct (process_slice_ok ts text Hb Hu) as (st & ps & E & Hm & Hmin & _ & H1 & H2 & _ & H3).
  exists st, ps. split; [exact E|]. split; [exact Hm|]. split; [exact Hmin|]. split; [exact H1|]. split; [exact H2|].
  intros Hn p. rewrite H3. f_equal. f_equal. apply (trunc_small (length (c_tokens ts))); [exact Hn|].
  intros i Hi. eapply made_small; eauto.
Qed.

(** The set and the text of the module's own test. *)
Definition example_set : cset :=
  let '(ts, _) := add_char_token (cset_new 2) [x41] in
  let '(ts, b) := add_char_token ts [x42] in
  let ts := add_encoding ts [x43] [b; 0] in
  let ts := add_encoding ts [x44] [b; 0; 1] in
  let '(ts, _) := add_string ts [x44; x41] in
  fst (add_string ts [x41; x41; x41]).

Example C72_example : built example_set /\ utf8 [x44; x41; x41; x41] /\
  (exists st, process_slice example_set [x44; x41; x41; x41] = Ret st /\ cst_total st = 3 /\ cst_literals st = 2) /\
  process_slice example_set [x41; xc3] = Panic.
Proof.
  split; [|split; [|split; [|reflexivity]]].
  - assert (A : forall b, b2n b < 128 -> utf8_char [b]) by (intros; constructor; assumption).
    assert (U : forall l, Forall (fun b => b2n b < 128) l -> utf8 l) by apply utf8_ascii.
    pose (t1 := fst (add_char_token (cset_new 2) [x41])). pose (t2 := fst (add_char_token t1 [x42])).
    change (built (fst (add_string (fst (add_string (add_encoding (add_encoding t2 [x43] [3; 0]) [x44] [3; 0; 1]) [x44; x41])) [x41; x41; x41]))).
    unfold t2, t1. repeat match goal with
      | |- built (fst (add_string _ _)) => apply built_str
      | |- built (fst (add_char_token _ _)) => apply built_char
      | |- built (add_encoding _ _ _) => apply built_enc
      | |- built (cset_new _) => apply built_new
      end;
      try (apply A; cbn; lia); apply U; repeat constructor; cbn; lia.
  - apply utf8_ascii. repeat constructor; cbn; lia.
  - eexists. split; [vm_compute; reflexivity|]. split; reflexivity.
Qed.

(** What a character costs: one token if a token was made for it, else the length of the code it
    was given last (as a byte); without a code, nothing below 256 and 32 from there on.  [spells
    ts c o]: the last code given to [c] when [ts] was built. *)
Inductive spells : cset -> bstr -> option (list nat) -> Prop :=
| sp_new n c : spells (cset_new n) c None
| sp_char ts c : spells (fst (add_char_token ts c)) c (Some [length (c_tokens ts)])
| sp_enc ts c e : spells (add_encoding ts c e) c (Some e)
| sp_char_other ts c c' o : spells ts c o -> c <> c' -> spells (fst (add_char_token ts c')) c o
| sp_enc_other ts c c' e o : spells ts c o -> c <> c' -> spells (add_encoding ts c' e) c o
| sp_str ts c s o : spells ts c o -> spells (fst (add_string ts s)) c o.

Theorem C72_char_costs : forall ts c, built ts -> exists o, spells ts c o /\
  match o with
  | Some e => char_cost ts c = length e mod 256 /\ char_encoding ts c = Ret e
  | None => ((code_point c < 256)%N -> char_cost ts c = 0 /\ char_encoding ts c = Ret []) /\
            (~ (code_point c < 256)%N -> char_cost ts c = 32 /\ char_encoding ts c = Panic)
  end.
Proof.
  intros ts c H.
  assert (X : exists o, spells ts c o /\ sget (c_enc ts) c = o).
  { induction H as [n|ts c' H (o & S & E) Hc|ts c' e H (o & S & E) Hc|ts s H (o & S & E) Hs].
    - exists None. split; [constructor|reflexivity].
    - destruct (bstr_eqb_spec c c') as [->|N].
      + eexists. split; [apply sp_char|]. unfold add_char_token, add_encoding. cbn [fst c_enc]. rewrite sget_sinsert, (proj2 (bstr_eqb_eq _ _) eq_refl). reflexivity.
      + exists o. split; [apply sp_char_other; assumption|]. unfold add_char_token, add_encoding. cbn [fst c_enc]. rewrite sget_sinsert, (proj2 (bstr_eqb_neq _ _) N). exact E.
    - destruct (bstr_eqb_spec c c') as [->|N].
      + eexists. split; [apply sp_enc|]. unfold add_encoding. cbn [c_enc]. rewrite sget_sinsert, (proj2 (bstr_eqb_eq _ _) eq_refl). reflexivity.
      + exists o. split; [apply sp_enc_other; assumption|]. unfold add_encoding. cbn [c_enc]. rewrite sget_sinsert, (proj2 (bstr_eqb_neq _ _) N). exact E.
    - exists o. split; [apply sp_str, S|exact E]. }
  destruct X as (o & S & E). exists o. split; [exact S|]. unfold char_cost, char_encoding, lo_char. rewrite E.
  destruct o as [e|]; [auto|]. split; intros L; [apply N.ltb_lt in L|apply N.ltb_nlt in L]; rewrite L; auto.
Qed.

(** The code is unique: nothing else is spelled. *)
Theorem C72_one_code : forall ts c o o', spells ts c o -> sget (c_enc ts) c = o' -> o = o'.
Proof.
  intros ts c o o' S <-. induction S; try reflexivity; unfold add_char_token, add_encoding, add_string in *; cbn [fst c_enc] in *;
    rewrite ?sget_sinsert, ?(proj2 (bstr_eqb_eq _ _) eq_refl); try reflexivity; try assumption;
    rewrite (proj2 (bstr_eqb_neq _ _) H); assumption.
Qed.
