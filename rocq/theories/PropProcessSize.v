(** * Property C121: how long processed text can get. *)
From Verif Require Import Base BaseLemmas Utf8 SamplerModel PropSampler ProcessingModel PropProcessing PropInvalid.

Section Weight.
Variable U : unicode.
Variable W : bstr -> nat.
Variable K : nat.
Hypothesis Hok : table_ok U.
Hypothesis HK : 1 <= K.
Hypothesis Wspace : W space = 1.
Hypothesis Wcap : W cap_mark = 1.
Hypothesis Wcaps : W caps_mark = 1.
Hypothesis Wend : W end_mark = 1.
Hypothesis Wsigma : W cap_sigma = W small_sigma.
Hypothesis Wfinal : W cap_sigma = W final_sigma.

Definition wt (t : text) : nat := list_sum (map W t).

Lemma wt_app a b : wt (a ++ b) = wt a + wt b.
Proof. unfold wt. rewrite map_app, list_sum_app. reflexivity. Qed.
Lemma wt_cons a b : wt (a :: b) = W a + wt b.
Proof. reflexivity. Qed.

Definition grows (c : bstr) : Prop := 1 <= W c /\ wt (lower_char U c) <= K * W c.
Definition keeps (c : bstr) : Prop := forall l r, lower_char U c = l :: r -> W c <= W l.

Lemma lower_upper w : Forall grows w -> forall b, wt (lower_from U b w) <= K * wt w.
Proof.
  induction 1 as [|c r [Hc1 Hc2] Hr IH]; intros b; cbn [lower_from]; [cbn; lia|].
  rewrite wt_app, wt_cons. specialize (IH (c :: b)).
  destruct (bstr_eqb c cap_sigma) eqn:E.
  - apply bstr_eqb_eq in E; subst c.
    destruct (ignorable_then_cased U b && negb (ignorable_then_cased U r)); rewrite wt_cons; change (wt []) with 0; nia.
  - nia.
Qed.

Lemma lower_lower w : Forall keeps w -> forall b, wt w <= wt (lower_from U b w).
Proof.
  induction 1 as [|c r Hc Hr IH]; intros b; cbn [lower_from]; [cbn; lia|].
  rewrite wt_app, wt_cons. specialize (IH (c :: b)).
  destruct (bstr_eqb c cap_sigma) eqn:E.
  - apply bstr_eqb_eq in E; subst c.
    destruct (ignorable_then_cased U b && negb (ignorable_then_cased U r)); rewrite wt_cons; lia.
  - destruct (lower_char U c) as [|l ls] eqn:El; [exfalso; exact (to_lower _ Hok c El)|].
    pose proof (Hc l ls El). rewrite wt_cons. lia.
Qed.

Lemma add_word_upper out w out' : w <> [] -> Forall grows w -> add_word U out w = Ret out' ->
  wt out' <= wt out + K * wt w + 2.
Proof.
  intros Hw Hg H. destruct w as [|c r]; [congruence|].
  unfold add_word in H. cbn [assert_that bind hd_error unwrap tl] in H.
  pose proof (lower_upper (c :: r) Hg []) as Hl.
  pose proof (Forall_inv Hg) as [Hc1 Hc2].
  destruct (uppercase U c); cbn [bind] in H.
  - destruct (forallb (lowercase U) r).
    + destruct (lower_char U c) as [|l ls] eqn:El; cbn [hd_error unwrap bind] in H; [discriminate|].
      injection H as <-. repeat rewrite ?wt_app, ?wt_cons in *. change (wt []) with 0. nia.
    + destruct (forallb (uppercase U) r); cbn [bind] in H; injection H as <-;
        unfold lower_str; repeat rewrite ?wt_app, ?wt_cons in *; change (wt []) with 0; nia.
  - injection H as <-. repeat rewrite ?wt_app, ?wt_cons in *. change (wt []) with 0. nia.
Qed.

Lemma add_word_lower out w out' : w <> [] -> Forall keeps w -> add_word U out w = Ret out' ->
  wt out + wt w + 1 <= wt out'.
Proof.
  intros Hw Hg H. destruct w as [|c r]; [congruence|].
  unfold add_word in H. cbn [assert_that bind hd_error unwrap tl] in H.
  pose proof (lower_lower (c :: r) Hg []) as Hl.
  pose proof (Forall_inv Hg) as Hc.
  destruct (uppercase U c); cbn [bind] in H.
  - destruct (forallb (lowercase U) r).
    + destruct (lower_char U c) as [|l ls] eqn:El; cbn [hd_error unwrap bind] in H; [discriminate|].
      pose proof (Hc l ls El).
      injection H as <-. repeat rewrite ?wt_app, ?wt_cons in *. change (wt []) with 0. lia.
    + destruct (forallb (uppercase U) r); cbn [bind] in H; injection H as <-;
        unfold lower_str; repeat rewrite ?wt_app, ?wt_cons in *; change (wt []) with 0; lia.
  - injection H as <-. repeat rewrite ?wt_app, ?wt_cons in *. change (wt []) with 0. lia.
Qed.

Lemma char_space c : get_char_type U c = Space -> c = space.
Proof.
  unfold get_char_type. destruct (alphabetic U c); [discriminate|].
  destruct (bstr_eqb c space) eqn:E; [|discriminate]. intros _. now apply bstr_eqb_eq.
Qed.

Definition up_inv (n : nat) (s : text * text * pstate) : Prop :=
  let '(out, word, st) := s in
  Forall grows word /\
  match st with
  | NonWord => word = [] /\ wt out <= (K + 1) * n
  | Word => word <> [] /\ wt out + (K + 1) * wt word <= (K + 1) * n
  | SpaceAfterWord => word = [] /\ wt out + K <= (K + 1) * n
  end.

Lemma up_step n s c s' : up_inv n s -> grows c -> process_step U s c = Ret s' -> up_inv (n + W c) s'.
Proof.
  destruct s as [[out word] st]. intros [Hg Hi] Hc H. pose proof Hc as [Hc1 Hc2].
  assert (Hsp : get_char_type U c = Space -> W c = 1) by (intros E; rewrite (char_space c E); exact Wspace).
  unfold process_step in H.
  destruct st, (get_char_type U c) eqn:Et; cbn [bind] in H;
    try (match type of H with (match ?m with _ => _ end) = _ => idtac | bind ?m _ = _ => idtac end).
  - injection H as <-. destruct Hi as [Hi1 Hi2]. split; [apply Forall_app; auto|].
    split; [destruct word; discriminate|]. rewrite wt_app, wt_cons. change (wt []) with 0. nia.
  - destruct (add_word U out word) as [out'| |] eqn:E; cbn [bind] in H; try discriminate. injection H as <-.
    destruct Hi as [Hi1 Hi2]. pose proof (add_word_upper _ _ _ Hi1 Hg E).
    assert (1 <= wt word) by (destruct word as [|a b]; [congruence|]; rewrite wt_cons; destruct (Forall_inv Hg); lia).
    split; [constructor; auto|]. split; [reflexivity|]. rewrite wt_app, wt_cons. change (wt []) with 0. nia.
  - destruct (add_word U out word) as [out'| |] eqn:E; cbn [bind] in H; try discriminate. injection H as <-.
    destruct Hi as [Hi1 Hi2]. pose proof (add_word_upper _ _ _ Hi1 Hg E). specialize (Hsp eq_refl).
    assert (1 <= wt word) by (destruct word as [|a b]; [congruence|]; rewrite wt_cons; destruct (Forall_inv Hg); lia).
    split; [constructor|]. split; [reflexivity|]. rewrite Hsp. nia.
  - injection H as <-. destruct Hi as [-> Hi2]. split; [constructor; auto|].
    split; [discriminate|]. cbn [app]. rewrite wt_cons. change (wt []) with 0. nia.
  - injection H as <-. destruct Hi as [-> Hi2]. split; [constructor|]. split; [reflexivity|].
    repeat rewrite ?wt_app, ?wt_cons. change (wt []) with 0. rewrite Wspace. nia.
  - injection H as <-. destruct Hi as [-> Hi2]. split; [constructor|]. split; [reflexivity|].
    repeat rewrite ?wt_app, ?wt_cons. change (wt []) with 0. rewrite Wspace. nia.
  - injection H as <-. destruct Hi as [-> Hi2]. split; [constructor; auto|].
    split; [discriminate|]. cbn [app]. rewrite wt_cons. change (wt []) with 0. nia.
  - injection H as <-. destruct Hi as [-> Hi2]. split; [constructor|]. split; [reflexivity|].
    repeat rewrite ?wt_app, ?wt_cons. change (wt []) with 0. nia.
  - injection H as <-. destruct Hi as [-> Hi2]. split; [constructor|]. split; [reflexivity|].
    repeat rewrite ?wt_app, ?wt_cons. change (wt []) with 0. nia.
Qed.

Lemma up_fold t : forall n s s', up_inv n s -> Forall grows t -> mfold (process_step U) t s = Ret s' -> up_inv (n + wt t) s'.
Proof.
  induction t as [|c r IH]; intros n s s' Hi Hg H; cbn [mfold] in H.
  - injection H as <-. change (wt []) with 0. rewrite Nat.add_0_r. exact Hi.
  - destruct (process_step U s c) as [s1| |] eqn:E; cbn [bind] in H; try discriminate.
    rewrite wt_cons, Nat.add_assoc. apply (IH _ s1); [|exact (Forall_inv_tail Hg)|exact H].
    eapply up_step; [exact Hi|exact (Forall_inv Hg)|exact E].
Qed.

Lemma weight_upper t out : Forall grows t -> process U t = Ret out -> wt out <= (K + 1) * wt t + 1.
Proof.
  intros Hg H. unfold process in H.
  destruct (mfold (process_step U) t ([], [], NonWord)) as [[[o w] st]| |] eqn:E; cbn [bind] in H; try discriminate.
  assert (Hi : up_inv (0 + wt t) (o, w, st)).
  { eapply up_fold; [|exact Hg|exact E]. split; [constructor|]. split; [reflexivity|]. cbn; lia. }
  destruct Hi as [Hw Hi]. cbn [Nat.add] in Hi. unfold process_end in H. destruct st.
  - destruct Hi as [Hi1 Hi2]. pose proof (add_word_upper _ _ _ Hi1 Hw H).
    assert (1 <= wt w) by (destruct w as [|a b]; [congruence|]; rewrite wt_cons; destruct (Forall_inv Hw); lia).
    nia.
  - injection H as <-. destruct Hi as [-> Hi2]. rewrite wt_app, wt_cons, Wspace. change (wt []) with 0. nia.
  - injection H as <-. destruct Hi as [-> Hi2]. lia.
Qed.

Definition low_inv (n : nat) (s : text * text * pstate) : Prop :=
  let '(out, word, st) := s in
  Forall keeps word /\
  match st with
  | Word => word <> [] /\ n <= wt out + wt word
  | _ => word = [] /\ n <= wt out
  end.

Lemma low_step n s c s' : low_inv n s -> keeps c -> process_step U s c = Ret s' -> low_inv (n + W c) s'.
Proof.
  destruct s as [[out word] st]. intros [Hg Hi] Hc H.
  assert (Hsp : get_char_type U c = Space -> W c = 1) by (intros E; rewrite (char_space c E); exact Wspace).
  unfold process_step in H.
  destruct st, (get_char_type U c) eqn:Et; cbn [bind] in H.
  - injection H as <-. destruct Hi as [Hi1 Hi2]. split; [apply Forall_app; auto|].
    split; [destruct word; discriminate|]. rewrite wt_app, wt_cons. change (wt []) with 0. lia.
  - destruct (add_word U out word) as [out'| |] eqn:E; cbn [bind] in H; try discriminate. injection H as <-.
    destruct Hi as [Hi1 Hi2]. pose proof (add_word_lower _ _ _ Hi1 Hg E).
    split; [constructor|]. split; [reflexivity|]. rewrite wt_app, wt_cons. change (wt []) with 0. lia.
  - destruct (add_word U out word) as [out'| |] eqn:E; cbn [bind] in H; try discriminate. injection H as <-.
    destruct Hi as [Hi1 Hi2]. pose proof (add_word_lower _ _ _ Hi1 Hg E). specialize (Hsp eq_refl).
    split; [constructor|]. split; [reflexivity|]. lia.
  - injection H as <-. destruct Hi as [-> Hi2]. split; [constructor; auto|].
    split; [discriminate|]. cbn [app]. rewrite wt_cons. change (wt []) with 0. lia.
  - injection H as <-. destruct Hi as [-> Hi2]. split; [constructor|]. split; [reflexivity|].
    repeat rewrite ?wt_app, ?wt_cons. change (wt []) with 0. lia.
  - injection H as <-. destruct Hi as [-> Hi2]. split; [constructor|]. split; [reflexivity|].
    repeat rewrite ?wt_app, ?wt_cons. change (wt []) with 0. lia.
  - injection H as <-. destruct Hi as [-> Hi2]. split; [constructor; auto|].
    split; [discriminate|]. cbn [app]. rewrite wt_cons. change (wt []) with 0. lia.
  - injection H as <-. destruct Hi as [-> Hi2]. split; [constructor|]. split; [reflexivity|].
    repeat rewrite ?wt_app, ?wt_cons. change (wt []) with 0. lia.
  - injection H as <-. destruct Hi as [-> Hi2]. split; [constructor|]. split; [reflexivity|].
    repeat rewrite ?wt_app, ?wt_cons. change (wt []) with 0. lia.
Qed.

Lemma low_fold t : forall n s s', low_inv n s -> Forall keeps t -> mfold (process_step U) t s = Ret s' -> low_inv (n + wt t) s'.
Proof.
  induction t as [|c r IH]; intros n s s' Hi Hg H; cbn [mfold] in H.
  - injection H as <-. change (wt []) with 0. rewrite Nat.add_0_r. exact Hi.
  - destruct (process_step U s c) as [s1| |] eqn:E; cbn [bind] in H; try discriminate.
    rewrite wt_cons, Nat.add_assoc. apply (IH _ s1); [|exact (Forall_inv_tail Hg)|exact H].
    eapply low_step; [exact Hi|exact (Forall_inv Hg)|exact E].
Qed.

Lemma weight_lower t out : Forall keeps t -> process U t = Ret out -> wt t <= wt out.
Proof.
  intros Hg H. unfold process in H.
  destruct (mfold (process_step U) t ([], [], NonWord)) as [[[o w] st]| |] eqn:E; cbn [bind] in H; try discriminate.
  assert (Hi : low_inv (0 + wt t) (o, w, st)).
  { eapply low_fold; [|exact Hg|exact E]. split; [constructor|]. split; [reflexivity|]. cbn; lia. }
  destruct Hi as [Hw Hi]. cbn [Nat.add] in Hi. unfold process_end in H. destruct st.
  - destruct Hi as [Hi1 Hi2]. pose proof (add_word_lower _ _ _ Hi1 Hw H). lia.
  - injection H as <-. destruct Hi as [-> Hi2]. rewrite wt_app. lia.
  - injection H as <-. destruct Hi as [-> Hi2]. lia.
Qed.
End Weight.

Lemma wt_ones t : wt (fun _ => 1) t = length t.
Proof. unfold wt. induction t as [|c r IH]; [reflexivity|]. cbn [map list_sum fold_right length] in *. unfold list_sum in IH. lia. Qed.

Lemma wt_bytes t : wt (@length byte) t = length (concat t).
Proof.
  unfold wt. induction t as [|c r IH]; [reflexivity|].
  cbn [map concat]. rewrite app_length. unfold list_sum in *. cbn [fold_right]. lia.
Qed.

(** ** Theorems *)
(** Counted in characters: processed text is at least as long as the text. *)
Theorem C121_never_fewer_characters : forall U t out, table_ok U ->
  process U t = Ret out -> length t <= length out.
Proof.
  intros U t out Hok H.
  rewrite <- !wt_ones. refine (weight_lower U (fun _ => 1) 1 Hok _ _ _ _ _ _ _ t out _ H); try reflexivity; try lia.
  apply Forall_forall. intros c _ l r _. lia.
Qed.

(** ... and if every character is lowered to at most [K] characters, it has at
    most [K + 1] times as many characters and one more. *)
Theorem C121_at_most_characters : forall U K t out, table_ok U -> 1 <= K ->
  (forall c, In c t -> length (lower_char U c) <= K) ->
  process U t = Ret out -> length out <= (K + 1) * length t + 1.
Proof.
  intros U K t out Hok HK Hl H.
  rewrite <- !wt_ones. refine (weight_upper U (fun _ => 1) K HK _ _ _ _ _ _ t out _ H); try reflexivity.
  apply Forall_forall. intros c Hc. split; [lia|]. rewrite wt_ones. specialize (Hl c Hc). lia.
Qed.

(** Counted in bytes: if no character gets more than [K] times as many bytes in
    lower case. *)
Theorem C121_at_most_bytes : forall U K t out, table_ok U -> 1 <= K ->
  (forall c, In c t -> c <> [] /\ length (concat (lower_char U c)) <= K * length c) ->
  process U t = Ret out -> length (concat out) <= (K + 1) * length (concat t) + 1.
Proof.
  intros U K t out Hok HK Hl H.
  rewrite <- !wt_bytes. refine (weight_upper U (@length byte) K HK _ _ _ _ _ _ t out _ H); try reflexivity.
  apply Forall_forall. intros c Hc. destruct (Hl c Hc) as [Hn Hb]. split; [destruct c; [congruence|cbn; lia]|].
  rewrite wt_bytes. exact Hb.
Qed.

Lemma chars_fuel_cut f : forall s, length s <= f ->
  Forall (fun c => c <> []) (chars_fuel f s) /\ concat (chars_fuel f s) = s.
Proof.
  induction f as [|f IH]; intros [|b r] Hf; try (split; [constructor|reflexivity]); [cbn in Hf; lia|].
  cbn [chars_fuel]. destruct (utf8_step (b :: r)) as [ok n] eqn:E.
  assert (Hn : 1 <= n <= length (b :: r)) by (eapply utf8_step_pos; [discriminate|exact E]).
  destruct (IH (skipn n (b :: r))) as [I1 I2]; [rewrite skipn_length; lia|].
  split.
  - constructor; [|exact I1]. intros X. apply (f_equal (@length byte)) in X. rewrite firstn_length in X. cbn [length] in X, Hn. lia.
  - cbn [concat]. rewrite I2. apply firstn_skipn.
Qed.

(** The same for the bytes of a text, ... *)
Theorem C121_at_most_text : forall U K s out, table_ok U -> 1 <= K ->
  (forall c, length (concat (lower_char U c)) <= K * length c) ->
  process_str U s = Ret out -> length out <= (K + 1) * length s + 1.
Proof.
  intros U K s out Hok HK Hl H. destruct (chars_fuel_cut (length s) s (le_n _)) as [Hc Hcc].
  unfold process_str in H. destruct (process U (chars s)) as [o| |] eqn:E; cbn [bind] in H; try discriminate.
  injection H as <-. rewrite <- Hcc at 1. apply (C121_at_most_bytes U K (chars s) o Hok HK); [|exact E].
  intros c Hin. split; [|apply Hl]. rewrite Forall_forall in Hc. exact (Hc c Hin).
Qed.

Lemma end_line_length s : length (end_line s) <= length s + 1.
Proof.
  induction s as [|b [|b2 r] IH]; [cbn; lia|cbn; destruct (Byte.eqb b x0a); cbn; lia|].
  change (end_line (b :: b2 :: r)) with (b :: end_line (b2 :: r)). cbn [length] in *. lia.
Qed.
Lemma drop_cr_length s : length (drop_cr s) <= length s.
Proof.
  induction s as [|b [|b2 r] IH]; [cbn; lia|cbn; lia|].
  change (drop_cr (b :: b2 :: r)) with (if Byte.eqb b x0d && Byte.eqb b2 x0a then drop_cr (b2 :: r) else b :: drop_cr (b2 :: r)).
  destruct (Byte.eqb b x0d && Byte.eqb b2 x0a); cbn [length] in *; lia.
Qed.

(** ... and for a file, valid or not, and what is written for it, however the
    writes end. *)
Theorem C121_at_most_file : forall U K cap script file ok sink, table_ok U -> 1 <= K ->
  (forall c, length (concat (lower_char U c)) <= K * length c) ->
  process_file U cap script file = Ret (ok, sink) ->
  length sink <= (K + 1) * (length file + 1) + 1.
Proof.
  intros U K cap script file0 ok0 sink0 Hok HK Hl H0.
  assert (X : forall file ok sink, utf8 file -> process_file U cap script file = Ret (ok, sink) ->
    length sink <= (K + 1) * (length file + 1) + 1).
  { intros file ok sink Hf H.
    destruct (C34_success_partial U cap script file Hok Hf) as (ok' & sink' & out & missing & Hp & Ho & Em & _).
    rewrite H in Hp. injection Hp as -> ->.
    pose proof (C121_at_most_text U K (lines_text file) out Hok HK Hl Ho) as B.
    rewrite Em, app_length in B.
    pose proof (end_line_length (drop_cr file)). pose proof (drop_cr_length file). unfold lines_text in *. nia. }
  destruct (utf8_valid file0) eqn:V.
  - apply (X file0 ok0 sink0); [apply utf8_valid_spec; exact V|exact H0].
  - assert (Hn : ~ utf8 file0) by (intros Hu; apply utf8_valid_spec in Hu; congruence).
    destruct (C33_written_before_the_error U cap file0 Hok Hn) as (good & l & r & E & _ & Hg & _ & _ & G & _).
    destruct (G script) as (ok & sink & G1 & G2). rewrite H0 in G2. injection G2 as _ ->.
    pose proof (X good ok sink Hg G1) as B. rewrite E, app_length. nia.
Qed.

(** The bounds are reached by texts of any length: capitals separated by
    commas, with the letters of ASCII. *)
Fixpoint capitals (n : nat) : text := match n with 0 => [[x41]] | S m => [x41] :: [x2c] :: capitals m end.

Theorem C121_bound_reached : forall n, exists out,
  table_ok ascii_table /\ (forall c, In c (capitals n) -> length (lower_char ascii_table c) <= 1) /\
  length (capitals n) = 2 * n + 1 /\
  process ascii_table (capitals n) = Ret out /\ length out = (1 + 1) * length (capitals n) + 1.
Proof.
  intros n.
  assert (Hl : length (capitals n) = 2 * n + 1) by (induction n as [|n IH]; cbn [capitals length]; [reflexivity|lia]).
  assert (X : forall out, exists out', length out' = length out + 4 * n + 3 /\
    (s <- mfold (process_step ascii_table) (capitals n) (out, [], NonWord) ;; process_end ascii_table s) = Ret out').
  { clear Hl. induction n as [|n IH]; intros out.
    - exists (out ++ [[x14]; [x61]; [x16]]). split; [rewrite app_length; cbn; lia|].
      cbn. rewrite <- !app_assoc. reflexivity.
    - destruct (IH ((out ++ [[x14]; [x61]; [x16]]) ++ [[x2c]])) as (out' & L & E). exists out'.
      split; [rewrite L, !app_length; cbn [length]; lia|].
      rewrite <- E. cbn. rewrite <- !app_assoc. reflexivity. }
  destruct (X []) as (out & L & E). exists out.
  split; [exact (proj1 ascii_table_ok)|]. split; [|split; [exact Hl|split; [exact E|]]].
  - intros c Hc. cbn. lia.
  - rewrite L, Hl. cbn [length]. lia.
Qed.

(** The lower bound is reached too, by every text without letters. *)
Theorem C121_lower_bound_reached : forall U t, table_ok U -> non_letters U t ->
  exists out, process U t = Ret out /\ length out = length t.
Proof.
  intros U t Hok Ht. exists (t ++ render U []). split; [|cbn; rewrite app_nil_r; reflexivity].
  apply C49_processed_form; [exact Hok|]. exists []. split; [now rewrite app_nil_r|]. split; [exact Ht|constructor].
Qed.

Theorem C121_hypotheses_met :
  table_ok ascii_table /\ (forall c, length (concat (lower_char ascii_table c)) <= 1 * length c) /\
  utf8 [x55; x53; x0d; x0a; x41] /\ never_refuses [] /\
  process_str ascii_table [x55; x53; x0d; x0a; x41] = Ret [x15; x75; x73; x16; x0d; x0a; x14; x61; x16] /\
  process_file ascii_table 8 [] [x55; x53; x0d; x0a; x41] = Ret (true, [x15; x75; x73; x16; x0a; x14; x61; x16; x0a]).
Proof.
  split; [exact (proj1 ascii_table_ok)|]. split.
  { intros c. cbn [ascii_table lower_char concat]. rewrite app_nil_r. unfold ascii_to_lower.
    destruct c as [|b [|b2 r]]; try (cbn [length]; lia). destruct (ascii_upper [b]); cbn [length]; lia. }
  split; [apply utf8_valid_spec; reflexivity|]. split; [intros ?; cbn; tauto|]. split; reflexivity.
Qed.
