(** * C88: can the text be recovered from as many token numbers as src/tokenizer.rs counts?
    The earlier program only counts: it says that a literal costs [literal_cost] tokens and that a
    set has [ntokens] different tokens.  The counts mean something only if texts can be written with
    that many symbols out of that many. *)
From Verif Require Import Base BaseLemmas LegacyModel LegacySpec LegacyTok PropLegacyTok LegacyOptProof LegacyBytesProof PropLegacyBytes.

(** ** The claim *)

(** There is a code that writes every text with the symbols below [ntokens], as many of them as
    the tokenizer counts, from which the text can be recovered. *)
Definition decodable (ts : lset) : Prop :=
  exists encode : bstr -> list nat,
    (forall w c, l_costs ts [w] c -> length (encode w) = c) /\
    (forall w x, In x (encode w) -> x < l_ntokens ts) /\
    (forall v w, encode v = encode w -> v = w).

(** ** Numbers as digits *)
Fixpoint digits (k c x : nat) : list nat :=
  match c with 0 => [] | S c' => x mod k :: digits k c' (x / k) end.

Lemma digits_length k c x : length (digits k c x) = c.
Proof. revert x. induction c; intros; cbn; auto. Qed.

Lemma digits_lt k c x d : 0 < k -> In d (digits k c x) -> d < k.
Proof.
  intros Hk. revert x. induction c as [|c IH]; intros x H; [destruct H|]. cbn [digits] in H. destruct H as [<- |H].
  - apply Nat.mod_upper_bound. lia.
  - eapply IH, H.
Qed.

Lemma digits_inj k c x y : 0 < k -> x < k ^ c -> y < k ^ c -> digits k c x = digits k c y -> x = y.
Proof.
  intros Hk. revert x y. induction c as [|c IH]; intros x y Hx Hy E; [cbn [Nat.pow] in *; lia|].
  cbn [digits] in E. injection E as E1 E2. apply IH in E2.
  - rewrite (Nat.div_mod x k), (Nat.div_mod y k) by lia. congruence.
  - apply Nat.div_lt_upper_bound; [lia|]. exact Hx.
  - apply Nat.div_lt_upper_bound; [lia|]. exact Hy.
Qed.

(** ** Codes that can be read from left to right *)
Lemma flat_map_inj {A B} (P : A -> Prop) (code : A -> list B) :
  (forall x, P x -> code x <> []) ->
  (forall x y r r', P x -> P y -> code x ++ r = code y ++ r' -> x = y) ->
  forall xs ys, Forall P xs -> Forall P ys -> flat_map code xs = flat_map code ys -> xs = ys.
Proof.
  intros Hne Hp xs. induction xs as [|x xs IH]; intros [|y ys] Hx Hy E; [reflexivity| | |].
  - exfalso. inversion Hy as [|? ? Py]; subst. specialize (Hne _ Py). cbn [flat_map] in E. destruct (code y); [congruence|discriminate].
  - exfalso. inversion Hx as [|? ? Px]; subst. specialize (Hne _ Px). cbn [flat_map] in E. destruct (code x); [congruence|discriminate].
  - inversion Hx as [|? ? Px Hx']; inversion Hy as [|? ? Py Hy']; subst. cbn [flat_map] in E.
    pose proof (Hp _ _ _ _ Px Py E) as ->. apply app_inv_head in E. f_equal. apply IH; assumption.
Qed.

Lemma app_same_length {A} (a b r r' : list A) : length a = length b -> a ++ r = b ++ r' -> a = b.
Proof.
  revert b. induction a as [|x a IH]; intros [|y b] Hl E; cbn [length] in *; try discriminate; [reflexivity|].
  injection E as -> E. f_equal. apply IH; [lia|exact E].
Qed.

Lemma segments_pieces ts xs w : l_segments ts xs w -> Forall (fun x => l_piece_string ts x <> None) xs.
Proof. induction 1; constructor; [congruence|assumption]. Qed.

Lemma segments_fun ts xs v w : l_segments ts xs v -> l_segments ts xs w -> v = w.
Proof.
  intros H. revert w. induction H as [|x xs s r Hx H IH]; intros w Hw; inversion Hw; subst; [reflexivity|].
  f_equal; [congruence|]. apply IH. assumption.
Qed.

(** The code of a piece. *)
Definition piece_code (ts : lset) (x : tidx) : list nat :=
  match x with
  | LTok i => [reserved_tokens (l_enc ts) + i]
  | LLit b =>
      match l_enc ts with
      | LDist2 | LDist4 | LDist8 => 0 :: digits (l_ntokens ts) (literal_cost (l_enc ts) - 1) (b2n b)
      | _ => digits (reserved_tokens (l_enc ts)) (literal_cost (l_enc ts)) (b2n b)
      end
  | LNone => []
  end.

(** The encodings of a literal that leave room for all bytes: in [LAll] there is no literal. *)
Definition roomy (ts : lset) : Prop :=
  In (l_enc ts) [LBits1; LBits2; LBits4; LAll] \/
  In (l_enc ts) [LDist2; LDist4; LDist8] /\ 256 <= l_ntokens ts ^ (literal_cost (l_enc ts) - 1).

Definition coded (ts : lset) (x : tidx) : Prop :=
  l_piece_string ts x <> None /\ (l_enc ts = LAll -> forall b, x <> LLit b).

Lemma lt_256 b : b2n b < 256.
Proof. apply b2n_lt. Qed.

Lemma piece_code_length ts x : roomy ts -> coded ts x -> length (piece_code ts x) = l_piece_cost (l_enc ts) x.
Proof.
  intros Hr [Hx Ha]. destruct x as [i|b|]; [reflexivity| |cbn in Hx; congruence].
  unfold piece_code, l_piece_cost. destruct (l_enc ts) eqn:E; try (apply digits_length).
  1-3: cbn [length]; rewrite digits_length; reflexivity.
Qed.

Lemma piece_code_lt ts x d : roomy ts -> coded ts x -> In d (piece_code ts x) -> d < l_ntokens ts.
Proof.
  intros Hr [Hx Ha] Hd. unfold l_ntokens. destruct x as [i|b|]; [| |destruct Hd].
  - cbn [piece_code] in Hd. destruct Hd as [<- |[]]. cbn [l_piece_string] in Hx.
    apply nth_error_Some in Hx. unfold l_strings in Hx. rewrite map_length in Hx. lia.
  - unfold piece_code in Hd. destruct (l_enc ts) eqn:E.
    1-3: apply digits_lt in Hd; cbn [reserved_tokens] in *; lia.
    1: exfalso; exact (Ha eq_refl b eq_refl).
    1-3: destruct Hd as [<- |Hd]; [cbn [reserved_tokens]; lia|]; apply digits_lt in Hd; unfold l_ntokens in *; rewrite E in *; cbn [reserved_tokens] in *; lia.
    exfalso. unfold roomy in Hr. rewrite E in Hr. destruct Hr as [[Hr|[Hr|[Hr|[Hr|[]]]]]|[[Hr|[Hr|[Hr|[]]]] _]]; discriminate Hr.
Qed.

Lemma piece_code_prefix ts x y r r' : roomy ts -> coded ts x -> coded ts y ->
  piece_code ts x ++ r = piece_code ts y ++ r' -> x = y.
Proof.
  intros Hr [Hx Hxa] [Hy Hya] E.
  assert (Hhex : l_enc ts <> LHex).
  { intros E'. unfold roomy in Hr. rewrite E' in Hr. destruct Hr as [[Hr|[Hr|[Hr|[Hr|[]]]]]|[[Hr|[Hr|[Hr|[]]]] _]]; discriminate Hr. }
  assert (Hlit : forall b, x = LLit b \/ y = LLit b -> l_enc ts <> LAll).
  { intros b [-> | ->] E'; [exact (Hxa E' b eq_refl)|exact (Hya E' b eq_refl)]. }
  (* a literal starts with a reserved symbol, a token does not *)
  assert (Hfirst : forall b, l_enc ts <> LAll -> exists d t, piece_code ts (LLit b) = d :: t /\ d < reserved_tokens (l_enc ts)).
  { intros b Hna. unfold piece_code. destruct (l_enc ts) eqn:Ee; try congruence;
      try (eexists _, _; split; [reflexivity|cbn [reserved_tokens]; lia]).
    1-3: cbn [literal_cost digits]; eexists _, _; split; [reflexivity|]; apply Nat.mod_upper_bound; cbn [reserved_tokens]; lia. }
  destruct x as [i|a|]; [| |cbn in Hx; congruence]; (destruct y as [j|b|]; [| |cbn in Hy; congruence]).
  - cbn [piece_code app] in E. injection E as E _. f_equal. lia.
  - exfalso. destruct (Hfirst b) as (d & t & Ed & Hd); [apply (Hlit b); auto|]. rewrite Ed in E. cbn [piece_code app] in E. injection E as E _. lia.
  - exfalso. destruct (Hfirst a) as (d & t & Ed & Hd); [apply (Hlit a); auto|]. rewrite Ed in E. cbn [piece_code app] in E. injection E as E _. lia.
  - f_equal. apply b2n_inj.
    assert (Ecode : piece_code ts (LLit a) = piece_code ts (LLit b)).
    { eapply app_same_length; [|exact E]. rewrite !piece_code_length; [reflexivity| | | |]; try assumption; split; assumption. }
    pose proof (lt_256 a) as Ha. pose proof (lt_256 b) as Hb. unfold piece_code in Ecode.
    assert (Hna : l_enc ts <> LAll) by (apply (Hlit a); auto).
    destruct (l_enc ts) eqn:Ee; try congruence.
    + apply (digits_inj 2 8); [lia| | |exact Ecode]; change (2 ^ 8) with 256; assumption.
    + apply (digits_inj 4 4); [lia| | |exact Ecode]; change (4 ^ 4) with 256; assumption.
    + apply (digits_inj 16 2); [lia| | |exact Ecode]; change (16 ^ 2) with 256; assumption.
    + destruct Hr as [Hr|[_ Hr]]; [rewrite Ee in Hr; destruct Hr as [Hr|[Hr|[Hr|[Hr|[]]]]]; discriminate Hr|]. rewrite Ee in Hr.
      apply (f_equal (@tl nat)) in Ecode. cbn [tl] in Ecode. eapply digits_inj; [|eapply Nat.lt_le_trans; [exact Ha|exact Hr]|eapply Nat.lt_le_trans; [exact Hb|exact Hr]|exact Ecode].
      unfold l_ntokens. rewrite Ee. cbn [reserved_tokens]. lia.
    + destruct Hr as [Hr|[_ Hr]]; [rewrite Ee in Hr; destruct Hr as [Hr|[Hr|[Hr|[Hr|[]]]]]; discriminate Hr|]. rewrite Ee in Hr.
      apply (f_equal (@tl nat)) in Ecode. cbn [tl] in Ecode. eapply digits_inj; [|eapply Nat.lt_le_trans; [exact Ha|exact Hr]|eapply Nat.lt_le_trans; [exact Hb|exact Hr]|exact Ecode].
      unfold l_ntokens. rewrite Ee. cbn [reserved_tokens]. lia.
    + destruct Hr as [Hr|[_ Hr]]; [rewrite Ee in Hr; destruct Hr as [Hr|[Hr|[Hr|[Hr|[]]]]]; discriminate Hr|]. rewrite Ee in Hr.
      apply (f_equal (@tl nat)) in Ecode. cbn [tl] in Ecode. eapply digits_inj; [|eapply Nat.lt_le_trans; [exact Ha|exact Hr]|eapply Nat.lt_le_trans; [exact Hb|exact Hr]|exact Ecode].
      unfold l_ntokens. rewrite Ee. cbn [reserved_tokens]. lia.
Qed.

Lemma segments_coded ts xs w : l_built ts -> l_segments ts xs w -> (forall b, In (LLit b) xs -> ~ In [b] (l_strings ts)) ->
  Forall (coded ts) xs.
Proof.
  intros Hb Hs Hn. apply segments_pieces in Hs. rewrite Forall_forall in *. intros x Hx. split; [apply Hs, Hx|].
  intros Ea b ->. apply (Hn b Hx). unfold l_strings. apply (in_map lt_string _ (mkLtok [b] true)).
  apply built_mandatory; [exact Hb|]. rewrite Ea. cbn [mandatory_strings]. apply in_map_iff. exists b. split; [reflexivity|apply in_all_bytes].
Qed.

Lemma code_length ts xs : roomy ts -> Forall (coded ts) xs -> length (flat_map (piece_code ts) xs) = l_seg_cost (l_enc ts) xs.
Proof.
  intros Hr. unfold l_seg_cost. induction 1 as [|x xs Hx _ IH]; [reflexivity|]. cbn [flat_map map]. rewrite app_length, piece_code_length by assumption.
  rewrite IH. reflexivity.
Qed.

Lemma l_costs_one ts w c : l_costs ts [w] c <-> exists f : bstr -> list tidx, (forall w, l_optimal ts (f w) w) /\ c = l_seg_cost (l_enc ts) (f w).
Proof.
  unfold l_costs. split; intros (f & Hf & ->); exists f; (split; [exact Hf|]); cbn [map sum fold_right]; unfold sum; cbn; lia.
Qed.

Theorem C88_decodable_partial ts : l_built ts -> ~ In [] (l_strings ts) -> roomy ts -> decodable ts.
Proof.
  intros Hb Hne Hr. destruct (C76_legacy_tokenizer ts Hb) as (_ & H). destruct (H Hne) as (f & Hf & _).
  assert (Hc : forall w, Forall (coded ts) (f w)).
  { intros w. destruct (Hf w) as (((Hs & _) & _) & Hl). eapply segments_coded; eassumption. }
  exists (fun w => flat_map (piece_code ts) (f w)). split; [|split].
  - intros w c Hw. rewrite code_length by auto. eapply l_costs_unique; [|exact Hw]. apply l_costs_one. exists f. split; [|reflexivity]. intros v. apply Hf.
  - intros w x Hx. apply in_flat_map in Hx as (p & Hp & Hx). eapply piece_code_lt; [exact Hr| |exact Hx].
    specialize (Hc w). rewrite Forall_forall in Hc. apply Hc, Hp.
  - intros v w E. apply (flat_map_inj (coded ts)) in E; [| | |apply Hc|apply Hc].
    + destruct (Hf v) as (((Hv & _) & _) & _). destruct (Hf w) as (((Hw & _) & _) & _). rewrite E in Hv. eapply segments_fun; eassumption.
    + intros x Hx E'. pose proof (piece_code_length ts x Hr Hx) as El. rewrite E' in El. destruct Hx as [Hx _].
      destruct x as [i|b|]; [discriminate El| |cbn in Hx; congruence]. cbn in El. destruct (l_enc ts); discriminate El.
    + intros x y r r' Hx Hy. apply piece_code_prefix; assumption.
Qed.

(** ** Where it is false *)

(** all words of [n] letters *)
Fixpoint words {A} (n : nat) (al : list A) : list (list A) :=
  match n with 0 => [[]] | S n' => flat_map (fun x => map (cons x) (words n' al)) al end.

Lemma in_words {A} n (al : list A) w : In w (words n al) <-> length w = n /\ forall x, In x w -> In x al.
Proof.
  revert w. induction n as [|n IH]; intros w; cbn [words].
  - split.
    + intros [<- |[]]. split; [reflexivity|intros x []].
    + intros [H _]. destruct w; [left; reflexivity|discriminate].
  - rewrite in_flat_map. split.
    + intros (x & Hx & Hw). apply in_map_iff in Hw as (v & <- & Hv). apply IH in Hv as [Hl Hv]. split; [cbn [length]; lia|].
      intros y [<- |Hy]; [exact Hx|apply Hv, Hy].
    + intros [Hl Hw]. destruct w as [|x v]; [discriminate|]. exists x. split; [apply Hw; left; reflexivity|]. apply in_map, IH.
      split; [cbn [length] in Hl; lia|]. intros y Hy. apply Hw. right. exact Hy.
Qed.

Lemma words_length {A} n (al : list A) : length (words n al) = length al ^ n.
Proof.
  induction n as [|n IH]; [reflexivity|]. cbn [words Nat.pow]. rewrite <- IH. generalize (words n al). intros l. clear IH.
  induction al as [|x al IHa]; [reflexivity|]. cbn [flat_map length Nat.mul]. rewrite app_length, map_length, IHa. reflexivity.
Qed.

Lemma nodup_app {A} (a b : list A) : NoDup a -> NoDup b -> (forall x, In x a -> In x b -> False) -> NoDup (a ++ b).
Proof.
  induction 1 as [|x a Hx _ IH]; intros Hb Hd; [exact Hb|]. cbn [app]. constructor.
  - intros H. apply in_app_or in H as [H|H]; [contradiction|]. apply (Hd x); [left; reflexivity|exact H].
  - apply IH; [exact Hb|]. intros y Hy. apply Hd. right. exact Hy.
Qed.

Lemma NoDup_words {A} n (al : list A) : NoDup al -> NoDup (words n al).
Proof.
  intros Hal. induction n as [|n IH]; [repeat constructor; intros []|]. cbn [words]. generalize dependent (words n al). intros l Hl.
  induction Hal as [|x al Hx _ IHa]; [constructor|]. cbn [flat_map]. apply nodup_app.
  - apply FinFun.Injective_map_NoDup; [|exact Hl]. intros a b E. congruence.
  - exact IHa.
  - intros w Hw Hw'. apply in_map_iff in Hw as (v & <- & _). apply in_flat_map in Hw' as (y & Hy & Hw').
    apply in_map_iff in Hw' as (v' & E & _). injection E as -> _. contradiction.
Qed.

(** Pieces of one byte each: no text is cheaper than its length. *)
Lemma seg_single ts xs w : (forall s, In s (l_strings ts) -> length s = 1) -> l_segments ts xs w ->
  length w = length xs /\ length w <= l_seg_cost (l_enc ts) xs.
Proof.
  intros H1. unfold l_seg_cost. induction 1 as [|x xs s r Hx _ [IH1 IH2]]; [split; [reflexivity|cbn; lia]|].
  assert (Hs : length s = 1 /\ 1 <= l_piece_cost (l_enc ts) x).
  { destruct x as [i|b|]; cbn [l_piece_string l_piece_cost] in *; [| |discriminate].
    - split; [|lia]. apply H1. eapply nth_error_In, Hx.
    - injection Hx as <-. split; [reflexivity|]. destruct (l_enc ts); cbn [literal_cost]; lia. }
  rewrite app_length. cbn [length map]. change (sum (l_piece_cost (l_enc ts) x :: map (l_piece_cost (l_enc ts)) xs)) with (l_piece_cost (l_enc ts) x + sum (map (l_piece_cost (l_enc ts)) xs)).
  lia.
Qed.

Lemma seg_letters ts w : (forall b, In b w -> In [b] (l_strings ts)) -> exists xs, l_segments ts xs w /\ l_seg_cost (l_enc ts) xs = length w.
Proof.
  induction w as [|b w IH]; intros H; [exists []; split; [constructor|reflexivity]|].
  destruct IH as (xs & Hs & Hc); [intros; apply H; right; assumption|].
  destruct (In_nth_error _ _ (H b (or_introl eq_refl))) as (i & Hi).
  exists (LTok i :: xs). split; [exact (ls_cons ts (LTok i) xs [b] w Hi Hs)|].
  change (l_seg_cost (l_enc ts) (LTok i :: xs)) with (1 + l_seg_cost (l_enc ts) xs). cbn [length]. lia.
Qed.

(** With hexadecimal literals there are too many texts of three tokens: all those of three
    one-byte tokens, and the literals. *)
Lemma hex_not_decodable ts : l_built ts -> l_enc ts = LHex -> (forall s, In s (l_strings ts) -> length s = 1) ->
  (exists b, ~ In [b] (l_strings ts)) -> ~ decodable ts.
Proof.
  intros Hb Eh H1 (z & Hz) (encode & Hlen & Hlt & Hinj).
  assert (Hne : ~ In [] (l_strings ts)) by (intros H; apply H1 in H; discriminate).
  destruct (C76_legacy_tokenizer ts Hb) as (_ & H). destruct (H Hne) as (f & Hf & _). clear H.
  assert (Hcost : forall w, l_costs ts [w] (l_seg_cost (l_enc ts) (f w))).
  { intros w. apply l_costs_one. exists f. split; [|reflexivity]. intros v. apply Hf. }
  set (al := concat (l_strings ts)).
  assert (Hal : forall b, In b al <-> In [b] (l_strings ts)).
  { intros b. unfold al. rewrite in_concat. split.
    - intros (s & Hs & Hbs). pose proof (H1 s Hs) as Hl. destruct s as [|c [|? ?]]; try discriminate. destruct Hbs as [-> |[]]. exact Hs.
    - intros Hs. exists [b]. split; [exact Hs|left; reflexivity]. }
  assert (Hall : length al = length (l_strings ts) /\ NoDup al).
  { assert (Hnd : NoDup (l_strings ts)) by (eapply indexes_NoDup, l_built_ok, Hb). clear - H1 Hnd. unfold al.
    induction Hnd as [|s l Hs _ IH]; [split; [reflexivity|constructor]|].
    destruct IH as [IHl IHn]; [intros; apply H1; right; assumption|].
    pose proof (H1 s (or_introl eq_refl)) as Hl. destruct s as [|c [|? ?]]; try discriminate. cbn [concat app length].
    split; [lia|]. constructor; [|exact IHn]. intros Hc. apply in_concat in Hc as (s & Hs' & Hc).
    pose proof (H1 s (or_intror Hs')) as Hl'. destruct s as [|d [|? ?]]; try discriminate. destruct Hc as [-> |[]]. contradiction. }
  destruct Hall as [Hall Hnd].
  set (W := [z] :: words 3 al).
  assert (HW : NoDup W).
  { constructor; [|apply NoDup_words, Hnd]. intros Hin. apply in_words in Hin as [Hl _]. discriminate Hl. }
  assert (H3 : forall w, In w W -> length (encode w) = 3).
  { intros w Hw. apply Hlen. specialize (Hcost w). destruct (Hf w) as (((Hs & Ho) & _) & _).
    assert (E : l_seg_cost (l_enc ts) (f w) = 3); [|rewrite E in Hcost; exact Hcost].
    destruct Hw as [<- |Hw].
    - destruct (seg_single ts _ _ H1 Hs) as [El _]. destruct (f [z]) as [|x [|? ?]]; try discriminate El.
      inversion Hs as [|? ? s r Hx Hs' E1 E2]; subst. inversion Hs'; subst. rewrite app_nil_r in E2. subst s.
      destruct x as [i|b|]; cbn [l_piece_string] in Hx; [|rewrite Eh; reflexivity|discriminate Hx].
      exfalso. apply Hz. eapply nth_error_In, Hx.
    - apply in_words in Hw as [Hl Hw]. destruct (seg_single ts _ _ H1 Hs) as [_ Hge].
      destruct (seg_letters ts w) as (xs & Hxs & Hc); [intros b Hin; apply Hal, Hw, Hin|]. specialize (Ho _ Hxs). lia. }
  assert (HWl : length W = S (length (l_strings ts) ^ 3)).
  { rewrite <- Hall, <- words_length. reflexivity. }
  clearbody W.
  assert (Hle : length (map encode W) <= length (words 3 (seq 0 (l_ntokens ts)))).
  { apply NoDup_incl_length.
    - apply FinFun.Injective_map_NoDup; [|exact HW]. intros a b. apply Hinj.
    - intros c Hc. apply in_map_iff in Hc as (w & <- & Hw). apply in_words. split; [apply H3, Hw|].
      intros x Hx. apply in_seq. split; [lia|]. apply (Hlt w x Hx). }
  assert (Hmap : length (map encode W) = length W) by apply map_length.
  rewrite Hmap, HWl in Hle. rewrite (words_length 3 (seq 0 (l_ntokens ts))), seq_length in Hle. clear - Hle Eh.
  unfold l_ntokens in Hle. rewrite Eh in Hle. cbn [reserved_tokens] in Hle. rewrite Nat.add_0_r in Hle. unfold l_strings in Hle. rewrite map_length in Hle. lia.
Qed.

(** A set of the distribution encodings without tokens has only one symbol. *)
Lemma dist_not_decodable ts e : lset_new e = Ret ts -> In e [LDist2; LDist4; LDist8] -> l_built ts /\ l_strings ts = [] /\ ~ decodable ts.
Proof.
  intros En He. pose proof (lb_new _ _ En) as Hb.
  assert (Ets : ts = mkLset [] [] e) by (destruct He as [<- |[<- |[<- |[]]]]; cbn in En; congruence).
  split; [exact Hb|]. split; [rewrite Ets; reflexivity|]. intros (encode & Hlen & Hlt & Hinj).
  assert (Hne : ~ In [] (l_strings ts)) by (rewrite Ets; intros []).
  destruct (C76_legacy_tokenizer ts Hb) as (_ & H). destruct (H Hne) as (f & Hf & _). clear H.
  assert (Hone : forall b, encode [b] = repeat 0 (literal_cost e)).
  { intros b. destruct (Hf [b]) as (((Hs & _) & _) & _).
    assert (E : l_costs ts [[b]] (literal_cost e)).
    { apply l_costs_one. exists f. split; [intros v; apply Hf|].
      destruct (seg_single ts (f [b]) [b]) as [El _]; [rewrite Ets; intros s []|exact Hs|].
      destruct (f [b]) as [|x [|? ?]]; try discriminate El. inversion Hs as [|? ? s r Hx Hs' E1 E2]; subst.
      destruct x as [i|c|]; cbn [l_piece_string] in Hx; [|unfold l_seg_cost, sum; cbn [map l_piece_cost l_enc fold_right]; lia|discriminate Hx].
      cbn in Hx. destruct i; discriminate Hx. }
    apply Hlen in E. rewrite <- E. clear E. assert (Hz : forall x, In x (encode [b]) -> x = 0).
    { intros x Hx. apply Hlt in Hx. rewrite Ets in Hx. unfold l_ntokens in Hx. cbn [l_tokens length l_enc] in Hx.
      destruct He as [<- |[<- |[<- |[]]]]; cbn [reserved_tokens] in Hx; lia. }
    revert Hz. generalize (encode [b]). induction l as [|x l IH]; intros Hz; [reflexivity|]. cbn [length repeat]. f_equal.
    - apply Hz. left. reflexivity.
    - apply IH. intros y Hy. apply Hz. right. exact Hy. }
  assert (E : [n2b 0] = [n2b 1]) by (apply Hinj; rewrite !Hone; reflexivity).
  apply (f_equal (map b2n)) in E. cbn [map] in E. rewrite !b2n_n2b_small in E by lia. discriminate E.
Qed.

Theorem C88_decodable_refuted :
  (exists ts, lset_new LHex = Ret ts /\ l_built ts /\ ~ In [] (l_strings ts)) /\
  (forall ts, l_built ts -> l_enc ts = LHex -> (forall s, In s (l_strings ts) -> length s = 1) ->
     (exists b, ~ In [b] (l_strings ts)) -> ~ decodable ts) /\
  (forall e, In e [LDist2; LDist4; LDist8] -> exists ts, l_built ts /\ l_enc ts = e /\ ~ In [] (l_strings ts) /\ ~ decodable ts).
Proof.
  split; [|split].
  - destruct hex_new as (ts & E). exists ts. split; [exact E|]. split; [exact (lb_new _ _ E)|]. destruct (hex_set ts E) as [Es _]. rewrite Es.
    unfold mandatory_strings. intros H. apply in_map_iff in H as (i & H & _). discriminate H.
  - exact hex_not_decodable.
  - intros e He. exists (mkLset [] [] e).
    assert (En : lset_new e = Ret (mkLset [] [] e)) by (destruct He as [<- |[<- |[<- |[]]]]; reflexivity).
    destruct (dist_not_decodable _ _ En He) as (Hb & Hs & Hd). split; [exact Hb|]. split; [reflexivity|]. split; [rewrite Hs; intros []|exact Hd].
Qed.

Lemma hex_not_z : ~ In [n2b 122] (mandatory_strings LHex).
Proof.
  intros H. apply in_map_iff in H as (i & H & Hi).
  assert (i < 256 /\ i <> 122) as [Hi' Hne].
  { destruct Hi as [<- |Hi]; [lia|]. apply in_app_or in Hi as [Hi|Hi]; apply in_seq in Hi; lia. }
  apply Hne. rewrite <- (b2n_n2b_small i Hi'). assert (H122 : 122 < 256) by lia. rewrite <- (b2n_n2b_small 122 H122).
  f_equal. revert H. generalize (n2b i) (n2b 122). intros x y H. congruence.
Qed.

Lemma hex_one s : In s (mandatory_strings LHex) -> length s = 1.
Proof. intros H. apply in_map_iff in H as (i & <- & _). reflexivity. Qed.

Lemma new_enc e ts : lset_new e = Ret ts -> l_enc ts = e.
Proof. unfold lset_new. intros E. apply add_mandatory_fold in E as (_ & Ee). exact Ee. Qed.

(** Concrete: the fresh set with hexadecimal literals has 17 tokens of one byte, z is none of them. *)
Lemma C88_hex_case : exists ts, lset_new LHex = Ret ts /\ ~ decodable ts.
Proof.
  destruct hex_new as (ts & E). exists ts. split; [exact E|]. destruct (hex_set ts E) as [Es _]. apply hex_not_decodable.
  - exact (lb_new _ _ E).
  - exact (new_enc LHex ts E).
  - rewrite Es. exact hex_one.
  - exists (n2b 122). rewrite Es. exact hex_not_z.
Qed.

(** Concrete: one token and literals of eight binary digits. *)
Lemma C88_bits_case : exists ts, l_built ts /\ l_strings ts = [[n2b 97; n2b 98]] /\ decodable ts.
Proof.
  assert (H : exists ts0 ts, lset_new LBits1 = Ret ts0 /\ l_add_token ts0 [n2b 97; n2b 98] = Ret ts /\ l_strings ts = [[n2b 97; n2b 98]] /\ l_enc ts = LBits1).
  { eexists _, _. split; [reflexivity|]. split; [reflexivity|]. split; reflexivity. }
  destruct H as (ts0 & ts & E0 & E1 & Es & Ee). exists ts. assert (Hb : l_built ts) by (eapply lb_add; [exact (lb_new _ _ E0)|exact E1]).
  split; [exact Hb|]. split; [exact Es|]. apply C88_decodable_partial; [exact Hb| |left; rewrite Ee; left; reflexivity].
  rewrite Es. intros [H|[]]. discriminate H.
Qed.
