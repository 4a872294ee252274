(** * UTF-8, as checked by [std::str::from_utf8] and replaced by
    [String::from_utf8_lossy].  This is Rust standard-library behaviour used by
    src/tokenset.rs:51-56, src/input/sample.rs:9-18 and the readers; it is
    written here from the Unicode table of well-formed byte sequences. *)
From Verif Require Import Base BaseLemmas.

Definition within (lo hi : nat) (b : byte) : bool := (lo <=? b2n b) && (b2n b <=? hi).
Definition cont (b : byte) : bool := within 128 191 b.

(** Range of the second byte of a 3- or 4-byte sequence. *)
Definition second3 (b0 b1 : byte) : bool :=
  match b2n b0 with
  | 224 => within 160 191 b1
  | 237 => within 128 159 b1
  | _ => cont b1
  end.
Definition second4 (b0 b1 : byte) : bool :=
  match b2n b0 with
  | 240 => within 144 191 b1
  | 244 => within 128 143 b1
  | _ => cont b1
  end.

(** Look at the first character: [(true, n)] a well-formed character of [n]
    bytes; [(false, n)] a maximal ill-formed prefix of [n] bytes. *)
Definition utf8_step (s : bstr) : bool * nat :=
  match s with
  | [] => (false, 0)
  | b0 :: r =>
      if b2n b0 <? 128 then (true, 1)
      else if within 194 223 b0 then
        match r with
        | b1 :: _ => if cont b1 then (true, 2) else (false, 1)
        | [] => (false, 1)
        end
      else if within 224 239 b0 then
        match r with
        | b1 :: r1 =>
            if second3 b0 b1 then
              match r1 with
              | b2 :: _ => if cont b2 then (true, 3) else (false, 2)
              | [] => (false, 2)
              end
            else (false, 1)
        | [] => (false, 1)
        end
      else if within 240 244 b0 then
        match r with
        | b1 :: r1 =>
            if second4 b0 b1 then
              match r1 with
              | b2 :: r2 =>
                  if cont b2 then
                    match r2 with
                    | b3 :: _ => if cont b3 then (true, 4) else (false, 3)
                    | [] => (false, 3)
                    end
                  else (false, 2)
              | [] => (false, 2)
              end
            else (false, 1)
        | [] => (false, 1)
        end
      else (false, 1)
  end.

Fixpoint valid_fuel (fuel : nat) (s : bstr) : bool :=
  match s, fuel with
  | [], _ => true
  | _ :: _, O => false
  | _ :: _, S f => let '(ok, n) := utf8_step s in ok && valid_fuel f (skipn n s)
  end.
(** [std::str::from_utf8(s).is_ok()] *)
Definition utf8_valid (s : bstr) : bool := valid_fuel (length s) s.

(** U+FFFD *)
Definition replacement : bstr := [xef; xbf; xbd].

Fixpoint lossy_fuel (fuel : nat) (s : bstr) : bstr :=
  match s, fuel with
  | [], _ => []
  | _ :: _, O => []
  | _ :: _, S f =>
      let '(ok, n) := utf8_step s in
      (if ok then firstn n s else replacement) ++ lossy_fuel f (skipn n s)
  end.
(** [String::from_utf8_lossy(s)] *)
Definition utf8_lossy (s : bstr) : bstr := lossy_fuel (length s) s.

(** ** Specification: strings of well-formed characters *)
Inductive utf8_char : bstr -> Prop :=
| uc1 a : b2n a < 128 -> utf8_char [a]
| uc2 a b : 194 <= b2n a <= 223 -> 128 <= b2n b <= 191 -> utf8_char [a; b]
| uc3 a b c : 224 <= b2n a <= 239 -> 128 <= b2n b <= 191 -> 128 <= b2n c <= 191 ->
    (b2n a = 224 -> 160 <= b2n b) -> (b2n a = 237 -> b2n b <= 159) -> utf8_char [a; b; c]
| uc4 a b c d : 240 <= b2n a <= 244 -> 128 <= b2n b <= 191 -> 128 <= b2n c <= 191 ->
    128 <= b2n d <= 191 ->
    (b2n a = 240 -> 144 <= b2n b) -> (b2n a = 244 -> b2n b <= 143) -> utf8_char [a; b; c; d].

Inductive utf8 : bstr -> Prop :=
| utf8_nil : utf8 []
| utf8_cons c r : utf8_char c -> utf8 r -> utf8 (c ++ r).

Lemma within_spec lo hi b : within lo hi b = true <-> lo <= b2n b <= hi.
Proof. unfold within. rewrite andb_true_iff, !Nat.leb_le. reflexivity. Qed.

Lemma nat_case_ne {A} n k (x y : A) : n <> k -> (if n =? k then x else y) = y.
Proof. intros H. apply Nat.eqb_neq in H. rewrite H. reflexivity. Qed.

Lemma second3_spec a b : second3 a b = true <->
  128 <= b2n b <= 191 /\ (b2n a = 224 -> 160 <= b2n b) /\ (b2n a = 237 -> b2n b <= 159).
Proof.
  assert (E : second3 a b = if b2n a =? 224 then within 160 191 b
                            else if b2n a =? 237 then within 128 159 b else cont b).
  { unfold second3. destruct a; reflexivity. }
  rewrite E. destruct (Nat.eqb_spec (b2n a) 224) as [Ha|Ha].
  - rewrite Ha, within_spec. lia.
  - destruct (Nat.eqb_spec (b2n a) 237) as [Hb|Hb].
    + rewrite Hb, within_spec. lia.
    + unfold cont. rewrite within_spec. lia.
Qed.

Lemma second4_spec a b : second4 a b = true <->
  128 <= b2n b <= 191 /\ (b2n a = 240 -> 144 <= b2n b) /\ (b2n a = 244 -> b2n b <= 143).
Proof.
  assert (E : second4 a b = if b2n a =? 240 then within 144 191 b
                            else if b2n a =? 244 then within 128 143 b else cont b).
  { unfold second4. destruct a; reflexivity. }
  rewrite E. destruct (Nat.eqb_spec (b2n a) 240) as [Ha|Ha].
  - rewrite Ha, within_spec. lia.
  - destruct (Nat.eqb_spec (b2n a) 244) as [Hb|Hb].
    + rewrite Hb, within_spec. lia.
    + unfold cont. rewrite within_spec. lia.
Qed.

Lemma within_false lo hi b : b2n b < lo \/ hi < b2n b -> within lo hi b = false.
Proof. intros H. apply not_true_iff_false. rewrite within_spec. lia. Qed.

Lemma utf8_step_char c r : utf8_char c -> utf8_step (c ++ r) = (true, length c).
Proof.
  intros H. destruct H as [a Ha|a b Ha Hb|a b c Ha Hb Hc H1 H2|a b c d Ha Hb Hc Hd H1 H2];
    cbn [app utf8_step length].
  - rewrite (proj2 (Nat.ltb_lt _ _)) by exact Ha. reflexivity.
  - rewrite (proj2 (Nat.ltb_ge _ _)) by lia. rewrite (proj2 (within_spec 194 223 a)) by lia.
    unfold cont. rewrite (proj2 (within_spec _ _ _)) by lia. reflexivity.
  - rewrite (proj2 (Nat.ltb_ge _ _)) by lia. rewrite (within_false 194 223 a) by lia.
    rewrite (proj2 (within_spec 224 239 a)) by lia.
    rewrite (proj2 (second3_spec _ _)) by auto.
    unfold cont. rewrite (proj2 (within_spec _ _ _)) by lia. reflexivity.
  - rewrite (proj2 (Nat.ltb_ge _ _)) by lia. rewrite (within_false 194 223 a) by lia.
    rewrite (within_false 224 239 a) by lia.
    rewrite (proj2 (within_spec 240 244 a)) by lia.
    rewrite (proj2 (second4_spec _ _)) by auto.
    unfold cont. rewrite (proj2 (within_spec 128 191 c)) by lia.
    rewrite (proj2 (within_spec 128 191 d)) by lia. reflexivity.
Qed.

Lemma utf8_step_true s n : utf8_step s = (true, n) ->
  exists c r, s = c ++ r /\ utf8_char c /\ n = length c.
Proof.
  unfold utf8_step. intros H.
  destruct s as [|a s]; [discriminate|].
  destruct (Nat.ltb_spec (b2n a) 128) as [Ha|Ha].
  { injection H as <-. exists [a], s. split; [reflexivity|]. split; [constructor; exact Ha|reflexivity]. }
  destruct (within 194 223 a) eqn:W1.
  { apply within_spec in W1. destruct s as [|b s]; [discriminate|].
    destruct (cont b) eqn:Cb; [|discriminate]. injection H as <-. apply within_spec in Cb.
    exists [a; b], s. split; [reflexivity|]. split; [constructor; assumption|reflexivity]. }
  destruct (within 224 239 a) eqn:W2.
  { apply within_spec in W2. destruct s as [|b s]; [discriminate|].
    destruct (second3 a b) eqn:Cb; [|discriminate]. apply second3_spec in Cb as (Cb & C1 & C2).
    destruct s as [|c s]; [discriminate|]. destruct (cont c) eqn:Cc; [|discriminate].
    apply within_spec in Cc. injection H as <-.
    exists [a; b; c], s. split; [reflexivity|]. split; [constructor; assumption|reflexivity]. }
  destruct (within 240 244 a) eqn:W3; [|discriminate].
  apply within_spec in W3. destruct s as [|b s]; [discriminate|].
  destruct (second4 a b) eqn:Cb; [|discriminate]. apply second4_spec in Cb as (Cb & C1 & C2).
  destruct s as [|c s]; [discriminate|]. destruct (cont c) eqn:Cc; [|discriminate].
  apply within_spec in Cc. destruct s as [|d s]; [discriminate|].
  destruct (cont d) eqn:Cd; [|discriminate]. apply within_spec in Cd. injection H as <-.
  exists [a; b; c; d], s. split; [reflexivity|]. split; [constructor; assumption|reflexivity].
Qed.

Lemma utf8_step_pos s ok n : s <> [] -> utf8_step s = (ok, n) -> 1 <= n <= length s.
Proof.
  intros Hs H. destruct s as [|a s]; [congruence|]. unfold utf8_step in H.
  repeat match type of H with
  | (if ?b then _ else _) = _ => destruct b
  | match ?l with [] => _ | _ :: _ => _ end = _ => destruct l
  end; injection H as <- <-; cbn; lia.
Qed.

Lemma utf8_char_length c : utf8_char c -> 1 <= length c <= 4.
Proof. intros H; destruct H; cbn; lia. Qed.

Lemma skipn_length_app {A} (a b : list A) : skipn (length a) (a ++ b) = b.
Proof. induction a; cbn; auto. Qed.
Lemma firstn_length_app {A} (a b : list A) : firstn (length a) (a ++ b) = a.
Proof. induction a; cbn; f_equal; auto. Qed.

Lemma valid_fuel_S f w : w <> [] ->
  valid_fuel (S f) w = (let '(ok, n) := utf8_step w in ok && valid_fuel f (skipn n w)).
Proof. destruct w; [congruence|reflexivity]. Qed.

Lemma valid_fuel_spec : forall f s, length s <= f -> (valid_fuel f s = true <-> utf8 s).
Proof.
  induction f as [|f IH]; intros s Hf.
  - destruct s; [|cbn in Hf; lia]. cbn. split; [constructor|reflexivity].
  - destruct s as [|a s].
    { cbn. split; [constructor|reflexivity]. }
    assert (Hne : a :: s <> []) by discriminate. revert Hf Hne. generalize (a :: s). clear a s.
    intros w Hf Hne. rewrite valid_fuel_S by exact Hne.
    destruct (utf8_step w) as [ok n] eqn:E.
    pose proof (utf8_step_pos w ok n Hne E) as Hn. split.
    + intros H. apply andb_true_iff in H as (-> & H). apply utf8_step_true in E as (c & r & Ew & Hc & ->).
      rewrite Ew in H |- *. rewrite skipn_length_app in H. constructor; [exact Hc|]. apply IH; [|exact H].
      rewrite Ew, app_length in Hf. rewrite Ew, app_length in Hn. lia.
    + intros H. inversion H as [Ew|c r Hc Hr Ew]; [congruence|].
      rewrite <- Ew in E. rewrite utf8_step_char in E by exact Hc. injection E as <- <-.
      rewrite <- ?Ew, skipn_length_app. cbn. apply IH; [|exact Hr].
      rewrite <- Ew, app_length in Hf. rewrite <- Ew, app_length in Hn. lia.
Qed.

Theorem utf8_valid_spec s : utf8_valid s = true <-> utf8 s.
Proof. apply valid_fuel_spec. lia. Qed.

Lemma lossy_fuel_valid : forall f s, length s <= f -> utf8 s -> lossy_fuel f s = s.
Proof.
  induction f as [|f IH]; intros s Hf H.
  - destruct s; [reflexivity|cbn in Hf; lia].
  - inversion H as [|c r Hc Hr Ew]; [destruct f; reflexivity|].
    assert (Hne : c ++ r <> []).
    { pose proof (utf8_char_length c Hc). destruct c; [cbn in *; lia|discriminate]. }
    destruct (c ++ r) as [|a w] eqn:Ea; [congruence|]. cbn [lossy_fuel].
    rewrite <- Ea in *. rewrite utf8_step_char by exact Hc.
    rewrite firstn_length_app, skipn_length_app, IH; auto.
    subst s. rewrite app_length in Hf. pose proof (utf8_char_length c Hc). lia.
Qed.

Lemma utf8_lossy_valid s : utf8 s -> utf8_lossy s = s.
Proof. apply lossy_fuel_valid. lia. Qed.

Lemma utf8_app a b : utf8 a -> utf8 b -> utf8 (a ++ b).
Proof. induction 1; intros; cbn; [assumption|]. rewrite <- app_assoc. constructor; auto. Qed.

(** Cancelling a valid prefix. *)
Lemma utf8_app_inv a b : utf8 a -> utf8 (a ++ b) -> utf8 b.
Proof.
  intros Ha. revert b. induction Ha as [|c r Hc Hr IH]; intros b H; [exact H|].
  apply IH. rewrite <- app_assoc in H. inversion H as [E|c' r' Hc' Hr' E].
  - destruct c; [|discriminate]. pose proof (utf8_char_length [] Hc). cbn in *; lia.
  - pose proof (utf8_step_char c (r ++ b) Hc) as E1. rewrite <- E in E1.
    rewrite utf8_step_char in E1 by exact Hc'. injection E1 as El.
    apply (f_equal (skipn (length c))) in E. rewrite skipn_length_app in E.
    rewrite <- El, skipn_length_app in E. subst; assumption.
Qed.

(** [from_utf8_lossy] always yields valid UTF-8. *)
Lemma lossy_fuel_utf8 : forall f s, utf8 (lossy_fuel f s).
Proof.
  induction f as [|f IH]; intros s; destruct s as [|a s]; try constructor.
  cbn [lossy_fuel]. destruct (utf8_step (a :: s)) as [ok n] eqn:E. destruct ok.
  - apply utf8_step_true in E as (c & r & Ew & Hc & ->). rewrite Ew, firstn_length_app.
    constructor; [exact Hc|apply IH].
  - constructor; [|apply IH]. apply uc3; cbn; lia.
Qed.
Lemma utf8_lossy_utf8 s : utf8 (utf8_lossy s).
Proof. apply lossy_fuel_utf8. Qed.

Lemma utf8_lossy_id_iff s : utf8_lossy s = s <-> utf8 s.
Proof. split; [intros <-; apply utf8_lossy_utf8|apply utf8_lossy_valid]. Qed.

(** A newline is a whole character wherever it occurs in valid UTF-8: cutting
    right after one keeps both sides valid. *)
Lemma ascii_in_char c x : utf8_char c -> In x c -> b2n x < 128 -> c = [x].
Proof.
  intros H Hin Hx. destruct H; cbn in Hin;
    repeat match goal with H : _ \/ _ |- _ => destruct H as [<-|H] end; try contradiction; auto; lia.
Qed.

Lemma utf8_cut_after a x b : b2n x < 128 -> utf8 (a ++ x :: b) -> utf8 (a ++ [x]) /\ utf8 b.
Proof.
  intros Hx H. remember (a ++ x :: b) as w eqn:Ew. revert a Ew.
  induction H as [|c r Hc Hr IH]; intros a Ew; [destruct a; discriminate|].
  destruct (Nat.le_gt_cases (length c) (length a)) as [Hle|Hgt].
  - assert (E : a = c ++ skipn (length c) a).
    { apply (f_equal (firstn (length c))) in Ew. rewrite firstn_length_app, firstn_app in Ew.
      replace (length c - length a) with 0 in Ew by lia. rewrite firstn_O, app_nil_r in Ew.
      rewrite Ew at 1. symmetry. apply firstn_skipn. }
    rewrite E in Ew. rewrite <- app_assoc in Ew. apply app_inv_head in Ew.
    destruct (IH _ Ew) as (H1 & H2). split; [|exact H2].
    rewrite E, <- app_assoc. constructor; assumption.
  - assert (Hin : In x c).
    { assert (E : nth_error c (length a) = Some x).
      { rewrite <- (nth_error_app1 c r) by exact Hgt. rewrite Ew, nth_error_app2, Nat.sub_diag by lia.
        reflexivity. }
      eapply nth_error_In; exact E. }
    pose proof (ascii_in_char c x Hc Hin Hx) as ->. destruct a; [|cbn in Hgt; lia].
    cbn in Ew. injection Ew as Ew. subst. split; [|exact Hr].
    apply (utf8_cons [x] []); [exact Hc|constructor].
Qed.

Lemma utf8_bytes_single b : utf8 [b] <-> b2n b < 128.
Proof.
  split.
  - intros H. inversion H as [|c r Hc Hr E]. destruct Hc; try discriminate.
    + injection E as -> _. assumption.
  - intros H. apply (utf8_cons [b] []); [constructor; exact H|constructor].
Qed.

Example utf8_example : utf8_valid [x41; xc3; xa9; xe2; x82; xac; xf0; x9f; x98; x80] = true /\
  utf8_valid [xc0; x80] = false /\ utf8_valid [xed; xa0; x80] = false /\
  utf8_lossy [x41; xf0; x9f; x41; x80] = [x41; xef; xbf; xbd; x41; xef; xbf; xbd].
Proof. repeat split; reflexivity. Qed.

(** ** Lossy decoding, a character at a time *)
Lemma lossy_fuel_more : forall f g s, length s <= f -> length s <= g -> lossy_fuel f s = lossy_fuel g s.
Proof.
  induction f as [|f IH]; intros g s Hf Hg.
  - destruct s; [destruct g; reflexivity|cbn in Hf; lia].
  - destruct s as [|a s]; [destruct g; reflexivity|]. destruct g as [|g]; [cbn in Hg; lia|].
    cbn [lossy_fuel]. destruct (utf8_step (a :: s)) as [ok n] eqn:E.
    apply utf8_step_pos in E; [|discriminate]. f_equal. apply IH; rewrite skipn_length; cbn [length] in *; lia.
Qed.

Lemma utf8_lossy_char c r : utf8_char c -> utf8_lossy (c ++ r) = c ++ utf8_lossy r.
Proof.
  intros H. pose proof (utf8_char_length c H) as Hl. unfold utf8_lossy.
  destruct (c ++ r) as [|a w] eqn:Ew.
  { destruct c; cbn in *; [lia|discriminate]. }
  cbn [length lossy_fuel]. rewrite <- Ew, utf8_step_char, firstn_length_app, skipn_length_app by exact H.
  f_equal. apply lossy_fuel_more; [|lia]. apply (f_equal (@length _)) in Ew. rewrite app_length in Ew. cbn in Ew. lia.
Qed.

Lemma utf8_lossy_app a b : utf8 a -> utf8_lossy (a ++ b) = a ++ utf8_lossy b.
Proof.
  induction 1 as [|c r Hc _ IH]; [reflexivity|]. rewrite <- !app_assoc, utf8_lossy_char by exact Hc.
  rewrite IH. reflexivity.
Qed.

Lemma utf8_ascii s : Forall (fun b => b2n b < 128) s -> utf8 s.
Proof.
  induction 1 as [|b s Hb _ IH]; [constructor|]. apply (utf8_cons [b] s); [constructor; exact Hb|exact IH].
Qed.
