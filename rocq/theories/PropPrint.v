(** * C90: what the program prints about tokens identifies them. *)
From Coq Require Import String Permutation Sorted.
From Verif Require Import Base BaseLemmas Utf8 TokenSetModel SortLemmas TokenSetProof TokenSetProof2 JsonModel JsonText JsonProof SamplerModel ProcessingModel
  PropProcessing CountModel PropCount PrintModel.
Local Open Scope list_scope.
Local Notation length := List.length.

(** ** Reading numbers *)
Definition digit (b : byte) : Prop := 48 <= b2n b <= 57.

Lemma digits_split (a b r r' : bstr) c c' : Forall digit a -> Forall digit b -> ~ digit c -> ~ digit c' ->
  a ++ c :: r = b ++ c' :: r' -> a = b /\ c = c' /\ r = r'.
Proof.
  intros Ha. revert b. induction Ha as [|x a Hx _ IH]; intros [|y b] Hb Hc Hc' E; cbn [app] in E; injection E as E1 E2.
  - auto.
  - exfalso. inversion Hb; subst. contradiction.
  - exfalso. subst. contradiction.
  - inversion Hb; subst. destruct (IH b) as (-> & -> & ->); auto.
Qed.

Lemma decimal_digits n : Forall digit (decimal n) /\ decimal n <> [].
Proof.
  destruct (show_nat_digits n) as [H1 H2]. split; [|exact H2]. unfold decimal. rewrite forallb_forall in H1. apply Forall_forall.
  intros b Hb. specialize (H1 b Hb). unfold is_digit, digit in *. apply andb_prop in H1 as [A B]. apply Nat.leb_le in A, B. lia.
Qed.

Lemma decimal_inj n m : decimal n = decimal m -> n = m.
Proof. intros E. apply lit_inj, show_nat_inj in E. exact E. Qed.

Lemma decimal_split n m r r' c c' : ~ digit c -> ~ digit c' -> decimal n ++ c :: r = decimal m ++ c' :: r' -> n = m /\ c = c' /\ r = r'.
Proof.
  intros Hc Hc' E. apply digits_split in E as (E & -> & ->); auto; try apply decimal_digits. apply decimal_inj in E. auto.
Qed.

Ltac nodigit := unfold digit; cbn; lia.

(** ** Escapes *)
Lemma char_prefix c c' r r' : utf8_char c -> utf8_char c' -> c ++ r = c' ++ r' -> c = c' /\ r = r'.
Proof.
  intros Hc Hc' E. pose proof (utf8_step_char c r Hc) as S1. pose proof (utf8_step_char c' r' Hc') as S2. rewrite E, S2 in S1.
  injection S1 as Hl. assert (E2 : c = c').
  { rewrite <- (firstn_length_app c r), <- (firstn_length_app c' r'), E, Hl. reflexivity. }
  subst c'. apply app_inv_head in E. auto.
Qed.

(** hexadecimal digits, read back *)
Definition hex_value (b : byte) : N := if (b2n b <? 97) then N.of_nat (b2n b - 48) else N.of_nat (b2n b - 87).
Definition hex_number (l : bstr) : N := fold_left (fun a b => (a * 16 + hex_value b)%N) l 0%N.

Lemma hex_digit_value n : (n < 16)%N -> hex_value (hex_digit n) = n /\ (48 <= b2n (hex_digit n) <= 102).
Proof.
  intros H. assert (Hn : N.to_nat n < 16) by lia. rewrite <- (N2Nat.id n) at 1 2. unfold hex_digit. rewrite N2Nat.id.
  rewrite <- (N2Nat.id n) at 2. generalize dependent (N.to_nat n). intros k Hk.
  do 16 (destruct k as [|k]; [split; [reflexivity|cbn; lia]|]). lia.
Qed.

Lemma hex_fuel_spec f : forall n acc, (n < 16 ^ N.of_nat f)%N -> exists l,
  hex_fuel f n acc = l ++ acc /\ hex_number l = n /\ Forall (fun b => b2n b <= 102) l.
Proof.
  induction f as [|f IH]; intros n acc Hn.
  - cbn in Hn. exists []. cbn. split; [reflexivity|]. split; [unfold hex_number; cbn; lia|constructor].
  - cbn [hex_fuel]. assert (Hm : (n mod 16 < 16)%N) by (apply N.mod_upper_bound; lia). destruct (hex_digit_value _ Hm) as [V B].
    destruct (N.ltb_spec n 16) as [Hs|Hs].
    + exists [hex_digit (n mod 16)]. split; [reflexivity|]. rewrite N.mod_small in * by exact Hs.
      split; [unfold hex_number; cbn [fold_left]; lia|]. constructor; [lia|constructor].
    + destruct (IH (n / 16)%N (hex_digit (n mod 16) :: acc)) as (l & E & Hv & Hb).
      { apply N.div_lt_upper_bound; [lia|]. rewrite Nat2N.inj_succ, N.pow_succ_r' in Hn. exact Hn. }
      exists (l ++ [hex_digit (n mod 16)]). split; [rewrite E, <- app_assoc; reflexivity|]. split.
      * unfold hex_number in *. rewrite fold_left_app. cbn [fold_left]. rewrite Hv, V. pose proof (N.div_mod n 16). lia.
      * apply Forall_app. split; [exact Hb|]. constructor; [lia|constructor].
Qed.

Lemma code_point_small c : utf8_char c -> (code_point c < 16 ^ 6)%N.
Proof.
  intros H. destruct H; cbn [code_point]; unfold cont_bits;
    repeat match goal with |- context [b2n ?x] => pose proof (b2n_lt x); generalize dependent (b2n x); intros end; cbn; lia.
Qed.

Lemma app_no_sep (a b r r' : bstr) (c : byte) : ~ In c a -> ~ In c b -> a ++ c :: r = b ++ c :: r' -> a = b /\ r = r'.
Proof.
  revert b. induction a as [|x a IH]; intros [|y b] Ha Hb E; cbn [app] in E.
  - injection E as ->. auto.
  - exfalso. injection E as E1 E2. apply Hb. left. auto.
  - exfalso. injection E as E1 E2. apply Ha. left. auto.
  - injection E as E1 E2. subst y. destruct (IH b) as (-> & ->); auto.
    + intros H. apply Ha. right. exact H.
    + intros H. apply Hb. right. exact H.
Qed.

Lemma unicode_prefix c c' r r' : utf8_char c -> utf8_char c' -> unicode_escape c ++ r = unicode_escape c' ++ r' -> c = c' /\ r = r'.
Proof.
  intros Hc Hc' E. unfold unicode_escape in E. rewrite <- !app_assoc in E. apply app_inv_head in E.
  destruct (hex_fuel_spec 6 (code_point c) [] (code_point_small c Hc)) as (l & El & Hv & Hb).
  destruct (hex_fuel_spec 6 (code_point c') [] (code_point_small c' Hc')) as (l' & El' & Hv' & Hb').
  rewrite El, El', !app_nil_r in E. change (lit "}") with [x7d] in E. cbn [app] in E.
  assert (N : forall l, Forall (fun b => b2n b <= 102) l -> ~ In x7d l).
  { intros k Hk Hin. rewrite Forall_forall in Hk. specialize (Hk _ Hin). cbn in Hk. lia. }
  apply app_no_sep in E as [E ->]; [|apply N, Hb|apply N, Hb']. split; [|reflexivity]. apply code_point_inj; congruence.
Qed.

Section Print.
Variable plain : bstr -> bool.
Variable q : byte.
Hypothesis Hq : q = x22 \/ q = x27.

Lemma eqb_true (a b : byte) : Byte.eqb a b = true -> a = b.
Proof. apply Byte.byte_dec_bl. Qed.

Lemma simple_inj a b e : simple q a = Some e -> simple q b = Some e -> a = b.
Proof.
  unfold simple. destruct Hq as [-> | ->];
  repeat match goal with |- context [Byte.eqb ?x ?y] => let E := fresh in destruct (Byte.eqb x y) eqn:E; [apply eqb_true in E|] end;
  intros; congruence.
Qed.
Lemma simple_u a : simple q a <> Some x75.
Proof.
  unfold simple. destruct Hq as [-> | ->];
  repeat match goal with |- context [Byte.eqb ?x ?y] => destruct (Byte.eqb x y) end; discriminate.
Qed.
Lemma simple_special a : a = q \/ a = x5c -> simple q a <> None.
Proof. unfold simple. destruct Hq as [-> | ->]; intros [-> | ->]; cbn; discriminate. Qed.

(** The three forms of an escape. *)
Lemma escape_cases c : utf8_char c ->
  (exists b e, c = [b] /\ simple q b = Some e /\ escape plain q c = [x5c; e]) \/
  (escape plain q c = c /\ (forall b, c = [b] -> simple q b = None)) \/
  escape plain q c = unicode_escape c.
Proof.
  intros _. unfold escape. destruct c as [|b [|b2 c]].
  - destruct (plain []); auto. right. left. split; [reflexivity|]. intros b E. discriminate E.
  - destruct (simple q b) as [e|] eqn:E; [left; exists b, e; auto|]. destruct (plain [b]); auto.
    right. left. split; [reflexivity|]. intros b' E'. injection E' as <-. exact E.
  - destruct (plain (b :: b2 :: c)); auto. right. left. split; [reflexivity|]. intros b' E'. discriminate E'.
Qed.

Lemma special_char c b t : utf8_char c -> c = b :: t -> b = q \/ b = x5c -> c = [b].
Proof.
  intros Hc -> Hb. apply (ascii_in_char (b :: t) b Hc); [left; reflexivity|]. destruct Hb as [-> | ->]; [destruct Hq as [-> | ->]|]; cbn; lia.
Qed.

Lemma plain_not_special c b t : utf8_char c -> c = b :: t -> (forall b, c = [b] -> simple q b = None) -> b <> q /\ b <> x5c.
Proof.
  intros Hc E H. split; intros Eb; pose proof (special_char c b t Hc E) as Hs.
  - assert (c = [b]) as Ec by auto. exact (simple_special b (or_introl Eb) (H b Ec)).
  - assert (c = [b]) as Ec by auto. exact (simple_special b (or_intror Eb) (H b Ec)).
Qed.

(** The first byte of an escape is never the quote. *)
Lemma escape_first c : utf8_char c -> exists b t, escape plain q c = b :: t /\ b <> q.
Proof.
  intros Hc. assert (Hn : x5c <> q) by (destruct Hq as [-> | ->]; discriminate).
  destruct (escape_cases c Hc) as [(b & e & -> & _ & E)|[(E & H)|E]]; rewrite E.
  - eauto.
  - destruct c as [|b t] eqn:Ec; [inversion Hc|]. exists b, t. split; [reflexivity|]. eapply (proj1 (plain_not_special (b :: t) b t Hc eq_refl H)).
  - exists x5c, (lit "u{" ++ hex_fuel 6 (code_point c) [] ++ lit "}"). split; [reflexivity|exact Hn].
Qed.

Lemma escape_prefix c c' r r' : utf8_char c -> utf8_char c' -> escape plain q c ++ r = escape plain q c' ++ r' -> c = c' /\ r = r'.
Proof.
  intros Hc Hc' E.
  assert (Hp : forall d s s', utf8_char d -> (forall b, d = [b] -> simple q b = None) -> d ++ s = x5c :: s' -> False).
  { intros d s s' Hd H Ed. destruct d as [|b t]; [inversion Hd|]. cbn [app] in Ed. injection Ed as Eb _.
    exact (proj2 (plain_not_special (b :: t) b t Hd eq_refl H) Eb). }
  destruct (escape_cases c Hc) as [(b & e & -> & Hb & Ee)|[(Ee & H)|Ee]];
  destruct (escape_cases c' Hc') as [(b' & e' & -> & Hb' & Ee')|[(Ee' & H')|Ee']]; rewrite Ee, Ee' in E.
  - cbn [app] in E. injection E as -> ->. split; [|reflexivity]. f_equal. eapply simple_inj; eassumption.
  - exfalso. eapply (Hp c'); [exact Hc'|exact H'|symmetry; exact E].
  - exfalso. change (unicode_escape c') with (x5c :: x75 :: lit "{" ++ hex_fuel 6 (code_point c') [] ++ lit "}") in E.
    cbn [app] in E. injection E as -> _. exact (simple_u b Hb).
  - exfalso. eapply (Hp c); [exact Hc|exact H|exact E].
  - apply char_prefix; assumption.
  - exfalso. eapply (Hp c); [exact Hc|exact H|exact E].
  - exfalso. change (unicode_escape c) with (x5c :: x75 :: lit "{" ++ hex_fuel 6 (code_point c) [] ++ lit "}") in E.
    cbn [app] in E. injection E as <- _. exact (simple_u b' Hb').
  - exfalso. eapply (Hp c'); [exact Hc'|exact H'|symmetry; exact E].
  - apply unicode_prefix; assumption.
Qed.

Lemma escapes_prefix l l' r r' : Forall utf8_char l -> Forall utf8_char l' ->
  flat_map (escape plain q) l ++ q :: r = flat_map (escape plain q) l' ++ q :: r' -> l = l' /\ r = r'.
Proof.
  intros Hl. revert l'. induction Hl as [|c l Hc _ IH]; intros [|c' l'] Hl' E; cbn [flat_map app] in E.
  - injection E as ->. auto.
  - exfalso. inversion Hl'; subst. destruct (escape_first c') as (b & t & Eb & Hb); [assumption|]. rewrite Eb in E. cbn [app] in E. injection E as E _. congruence.
  - exfalso. destruct (escape_first c) as (b & t & Eb & Hb); [assumption|]. rewrite Eb in E. cbn [app] in E. injection E as E _. congruence.
  - inversion Hl'; subst. rewrite <- !app_assoc in E. apply escape_prefix in E as [-> E]; try assumption.
    apply IH in E as [-> ->]; auto.
Qed.
End Print.

Section Tokens.
Variable plain : bstr -> bool.
Local Notation show := (show_token plain).

Lemma items_head (l : list nat) r : exists c t, flat_map (fun y => lit ", " ++ decimal y) l ++ x5d :: r = c :: t /\ ~ digit c.
Proof.
  destruct l as [|y l]; cbn [flat_map app].
  - exists x5d, r. split; [reflexivity|nodigit].
  - exists x2c, ((x20 :: decimal y) ++ flat_map (fun y => lit ", " ++ decimal y) l ++ x5d :: r). split; [|nodigit].
    change (lit ", ") with [x2c; x20]. rewrite <- app_assoc. reflexivity.
Qed.

Lemma items_prefix (l l' : list nat) r r' :
  flat_map (fun y => lit ", " ++ decimal y) l ++ x5d :: r = flat_map (fun y => lit ", " ++ decimal y) l' ++ x5d :: r' -> l = l' /\ r = r'.
Proof.
  revert l'. induction l as [|y l IH]; intros [|y' l'] E.
  - cbn in E. injection E as ->. auto.
  - exfalso. cbn in E. discriminate E.
  - exfalso. cbn in E. discriminate E.
  - cbn [flat_map] in E. rewrite <- !app_assoc in E. apply app_inv_head in E.
    destruct (items_head l r) as (c & t & Ec & Hc). destruct (items_head l' r') as (c' & t' & Ec' & Hc'). rewrite Ec, Ec' in E.
    apply decimal_split in E as (-> & -> & ->); try assumption. rewrite <- Ec' in Ec. apply IH in Ec as [-> ->]. auto.
Qed.

Lemma map_b2n_inj (s s' : bstr) : map b2n s = map b2n s' -> s = s'.
Proof.
  revert s'. induction s as [|a s IH]; intros [|b s'] E; try discriminate; [reflexivity|]. cbn [map] in E. injection E as E1 E2.
  f_equal; [apply b2n_inj, E1|apply IH, E2].
Qed.

Lemma debug_bytes_prefix s s' r r' : s <> [] -> s' <> [] -> debug_bytes s ++ r = debug_bytes s' ++ r' -> s = s' /\ r = r'.
Proof.
  intros Hs Hs' E. unfold debug_bytes in E. destruct s as [|a s]; [congruence|]. destruct s' as [|b s']; [congruence|].
  cbn [map] in E. rewrite <- !app_assoc in E. apply app_inv_head in E. cbn [app] in E.
  destruct (items_head (map b2n s) r) as (c & t & Ec & Hc). destruct (items_head (map b2n s') r') as (c' & t' & Ec' & Hc').
  rewrite Ec, Ec' in E. apply decimal_split in E as (Eb & -> & ->); try assumption. rewrite <- Ec' in Ec. apply items_prefix in Ec as [Ec ->].
  split; [|reflexivity]. f_equal; [apply b2n_inj, Eb|apply map_b2n_inj, Ec].
Qed.

Lemma debug_str_prefix s s' r r' : utf8 s -> utf8 s' -> debug_str plain s ++ r = debug_str plain s' ++ r' -> s = s' /\ r = r'.
Proof.
  intros Hs Hs' E. unfold debug_str in E. rewrite <- !app_assoc in E. apply app_inv_head in E.
  destruct (chars_spec s Hs) as [Hc Ec]. destruct (chars_spec s' Hs') as [Hc' Ec'].
  cbn [app] in E. apply (escapes_prefix plain x22 (or_introl eq_refl)) in E as [E ->]; try assumption. split; [|reflexivity]. congruence.
Qed.

(** A printed token starts with a digit, a quote or a bracket. *)
Lemma show_head t : exists b r, show t = b :: r /\ match t with Ext _ => digit b | Str s => b = if utf8_valid s then x22 else x5b end.
Proof.
  destruct t as [s|x]; cbn [show_token].
  - unfold show_bytes. destruct (utf8_valid s); [unfold debug_str|unfold debug_bytes]; cbn [app]; eauto.
  - destruct (decimal_digits (b2n x)) as [H1 H2]. destruct (decimal (b2n x)) as [|b r]; [congruence|]. inversion H1; subst. eauto.
Qed.

Lemma show_head_not t b r : show t = b :: r -> b <> x2d /\ b <> x20.
Proof.
  intros E. destruct (show_head t) as (b' & r' & E' & H). rewrite E in E'. injection E' as <- _.
  destruct t as [s|x]; [subst b; destruct (utf8_valid s); split; discriminate|]. split; intros ->; unfold digit in H; cbn in H; lia.
Qed.

(** ** C90 *)

(** A printed token followed by a space can be told from every other one, whatever follows. *)
Theorem C90_printed_token : forall t u r r', show t ++ x20 :: r = show u ++ x20 :: r' -> t = u /\ r = r'.
Proof.
  intros t u r r' E. destruct (show_head t) as (b & w & Eb & Hb). destruct (show_head u) as (b' & w' & Eb' & Hb').
  assert (Hbb : b = b') by (rewrite Eb, Eb' in E; cbn [app] in E; congruence). subst b'. clear Eb Eb' w w'.
  destruct t as [s|x]; destruct u as [s'|x'].
  - cbn [show_token] in E. unfold show_bytes in E. destruct (utf8_valid s) eqn:Vs; destruct (utf8_valid s') eqn:Vs'.
    + apply utf8_valid_spec in Vs, Vs'. apply debug_str_prefix in E as [-> E]; try assumption. injection E as ->. auto.
    + exfalso. congruence.
    + exfalso. congruence.
    + apply debug_bytes_prefix in E as [-> E].
      * injection E as ->. auto.
      * intros ->. discriminate Vs.
      * intros ->. discriminate Vs'.
  - exfalso. subst b. unfold digit in Hb'. destruct (utf8_valid s); cbn in Hb'; lia.
  - exfalso. subst b. unfold digit in Hb. destruct (utf8_valid s'); cbn in Hb; lia.
  - cbn [show_token] in E. apply decimal_split in E as (E & _ & ->); [|nodigit|nodigit]. apply b2n_inj in E. subst. auto.
Qed.

Corollary show_inj t u : show t = show u -> t = u.
Proof. intros E. apply (C90_printed_token t u [] []). rewrite E. reflexivity. Qed.

Definition ends (e : bstr) : Prop := e = [] \/ exists r, e = x2d :: r.

Lemma tokens_prefix l l' e e' : ends e -> ends e' ->
  flat_map (fun t => show t ++ [x20]) l ++ e = flat_map (fun t => show t ++ [x20]) l' ++ e' -> l = l' /\ e = e'.
Proof.
  assert (H0 : forall t r e, ends e -> e = show t ++ r -> False).
  { intros t r e0 He E. destruct (show_head t) as (b & w & Eb & _). pose proof (show_head_not _ _ _ Eb) as [Hn _]. rewrite Eb in E.
    destruct He as [-> |(s & ->)]; [discriminate E|]. injection E as E _. congruence. }
  intros He He'. revert l'. induction l as [|t l IH]; intros [|u l'] E; cbn [flat_map app] in E.
  - auto.
  - exfalso. rewrite <- !app_assoc in E. exact (H0 _ _ _ He E).
  - exfalso. rewrite <- !app_assoc in E. exact (H0 _ _ _ He' (eq_sym E)).
  - rewrite <- !app_assoc in E. cbn [app] in E. apply C90_printed_token in E as [-> E]. apply IH in E as [-> ->]. auto.
Qed.

Lemma join_space l r : l <> [] -> join [x20] (map show l) ++ x20 :: r = flat_map (fun t => show t ++ [x20]) l ++ r.
Proof.
  intros Hl. destruct l as [|t l]; [congruence|]. clear Hl. cbn [map join flat_map]. rewrite <- !app_assoc. f_equal.
  revert t. induction l as [|u l IH]; intros t; [reflexivity|]. cbn [map flat_map app]. rewrite <- !app_assoc. cbn [app]. f_equal. f_equal. apply IH. exact t.
Qed.

Lemma join_split l l' e e' : ends e -> ends e' -> join [x20] (map show l) ++ x20 :: e = join [x20] (map show l') ++ x20 :: e' -> l = l' /\ e = e'.
Proof.
  assert (H0 : forall t l r r', flat_map (fun t => show t ++ [x20]) (t :: l) ++ r = x20 :: r' -> False).
  { intros t k r r' E. destruct (show_head t) as (b & w & Eb & _). pose proof (show_head_not _ _ _ Eb) as [_ Hn]. cbn [flat_map] in E. rewrite Eb in E. cbn [app] in E. congruence. }
  intros He He' E. destruct l as [|t l]; destruct l' as [|u l'].
  - cbn in E. injection E as ->. auto.
  - exfalso. rewrite (join_space (u :: l')) in E by discriminate. exact (H0 _ _ _ _ (eq_sym E)).
  - exfalso. rewrite (join_space (t :: l)) in E by discriminate. exact (H0 _ _ _ _ E).
  - rewrite !join_space in E by discriminate. apply tokens_prefix; assumption.
Qed.

Lemma in_difference a b t : In t (difference a b) <-> In t a /\ ~ In t b.
Proof.
  unfold difference. rewrite filter_In, nodup_In, negb_true_iff. split; intros [H1 H2]; (split; [exact H1|]).
  - intros Hin. assert (existsb (token_eqb t) b = true); [|congruence]. apply existsb_exists. exists t. split; [exact Hin|]. apply token_eqb_eq. reflexivity.
  - destruct (existsb (token_eqb t) b) eqn:E; [|reflexivity]. exfalso. apply H2. apply existsb_exists in E as (u & Hu & E). apply token_eqb_eq in E. subst u. exact Hu.
Qed.

Lemma difference_nodup a b : NoDup (difference a b).
Proof. apply NoDup_filter, NoDup_nodup. Qed.

Local Notation ssort := (stable_sort (fun a b : bstr => cmp_leb (bstr_cmp a b))).

Lemma ssort_perm l l' : Permutation l l' -> ssort l = ssort l'.
Proof.
  intros H. apply sort_unique; [| | |exact H].
  - intros x y. rewrite (bstr_cmp_opp x y). destruct (bstr_cmp x y); auto.
  - apply bstr_cmp_trans.
  - intros x y _ _ Hxy Hyx. apply bstr_cmp_eq. rewrite (bstr_cmp_opp x y) in Hyx. destruct (bstr_cmp x y); [reflexivity|discriminate Hyx|discriminate Hxy].
Qed.

Lemma ssort_map l : exists k, ssort (map show l) = map show k /\ Permutation l k.
Proof. apply Permutation_map_inv. apply sort_perm. Qed.

(** The line that reports a step: the order in which the differences of the hash sets are
    enumerated does not matter, and two lines are equal exactly if the same tokens were removed
    and the same tokens were added. *)
Theorem C90_printed_step : forall order order' before after before' after',
  (forall l, Permutation (order l) l) -> (forall l, Permutation (order' l) l) ->
  (show_diff plain order before after = show_diff plain order' before' after' <->
   (forall t, (In t (tokens before) /\ ~ In t (tokens after)) <-> (In t (tokens before') /\ ~ In t (tokens after'))) /\
   (forall t, (In t (tokens after) /\ ~ In t (tokens before)) <-> (In t (tokens after') /\ ~ In t (tokens before')))).
Proof.
  intros order order' a b a' b' Ho Ho'. unfold show_diff. cbv zeta.
  assert (Hset : forall x y x' y' l l', Permutation (order (difference x y)) l -> Permutation (order' (difference x' y')) l' -> l = l' ->
    forall t, (In t x /\ ~ In t y) <-> (In t x' /\ ~ In t y')).
  { intros x y x' y' l l' H H' <- t. rewrite <- !in_difference. rewrite (Ho (difference x y)) in H. rewrite (Ho' (difference x' y')) in H'.
    split; intros Ht; [eapply Permutation_in; [symmetry; exact H'|eapply Permutation_in; [exact H|exact Ht]]|eapply Permutation_in; [symmetry; exact H|eapply Permutation_in; [exact H'|exact Ht]]]. }
  assert (Hsame : forall x y x' y', (forall t, (In t x /\ ~ In t y) <-> (In t x' /\ ~ In t y')) ->
    ssort (map show (order (difference x y))) = ssort (map show (order' (difference x' y')))).
  { intros x y x' y' H. apply ssort_perm, Permutation_map. rewrite Ho, Ho'. apply NoDup_Permutation; try apply difference_nodup.
    intros t. rewrite !in_difference. apply H. }
  split.
  - destruct (ssort_map (order (difference (tokens a) (tokens b)))) as (k1 & E1 & P1).
    destruct (ssort_map (order (difference (tokens b) (tokens a)))) as (k2 & E2 & P2).
    destruct (ssort_map (order' (difference (tokens a') (tokens b')))) as (k1' & E1' & P1').
    destruct (ssort_map (order' (difference (tokens b') (tokens a')))) as (k2' & E2' & P2').
    rewrite E1, E2, E1', E2'. clear E1 E2 E1' E2'. intros E.
    change (lit " -> ") with (x20 :: [x2d; x3e; x20]) in E. cbn [app] in E. apply join_split in E as [Ek E]; [|right; eauto..].
    injection E as E. apply (f_equal (fun l => l ++ [x20])) in E. apply join_split in E as [Ek2 _]; [|left; reflexivity..].
    split; [eapply Hset; [exact P1|exact P1'|exact Ek]|eapply Hset; [exact P2|exact P2'|exact Ek2]].
  - intros [H1 H2]. rewrite (Hsame _ _ _ _ H1), (Hsame _ _ _ _ H2). reflexivity.
Qed.

(** Whoever knows the tokens before a step can read off the tokens after it. *)
Theorem C90_steps_can_be_replayed : forall order order' before after after',
  (forall l, Permutation (order l) l) -> (forall l, Permutation (order' l) l) ->
  show_diff plain order before after = show_diff plain order' before after' ->
  forall t, In t (tokens after) <-> In t (tokens after').
Proof.
  intros order order' a b b' Ho Ho' E t. apply C90_printed_step in E as [H1 H2]; try assumption.
  specialize (H1 t). specialize (H2 t). destruct (in_dec token_eq_dec t (tokens a)); destruct (in_dec token_eq_dec t (tokens b)); destruct (in_dec token_eq_dec t (tokens b')); tauto.
Qed.

(** ** The output of count-chars *)
Lemma byte_of_small n : (n < 256)%N -> b2n (byte_of n) = N.to_nat n.
Proof. intros H. unfold byte_of. apply b2n_n2b_small. lia. Qed.

Lemma low_char v : v < 256 -> utf8_char (utf8_of (N.of_nat v)) /\ code_point (utf8_of (N.of_nat v)) = N.of_nat v.
Proof.
  intros Hv. unfold utf8_of. destruct (N.ltb_spec (N.of_nat v) 128) as [H|H].
  - split; [apply uc1; rewrite byte_of_small by lia; lia|]. cbn [code_point]. rewrite byte_of_small by lia. lia.
  - destruct (N.ltb_spec (N.of_nat v) 2048) as [H2|H2]; [|lia].
    assert (Hd : (N.of_nat v / 64 < 4 /\ 2 <= N.of_nat v / 64)%N).
    { split; [apply N.div_lt_upper_bound; lia|apply N.div_le_lower_bound; lia]. }
    assert (Hm : (N.of_nat v mod 64 < 64)%N) by (apply N.mod_upper_bound; lia).
    assert (Hdm : (N.of_nat v = 64 * (N.of_nat v / 64) + N.of_nat v mod 64)%N) by (apply N.div_mod; lia).
    revert Hd Hm Hdm. generalize (N.of_nat v / 64)%N (N.of_nat v mod 64)%N. intros x y Hx Hy Hdm. rewrite Hdm.
    split; [apply uc2; rewrite byte_of_small by lia; lia|]. cbn [code_point]. unfold cont_bits. rewrite !byte_of_small by lia. lia.
Qed.

Lemma char_of_number c : utf8_char c -> utf8_of (code_point c) = c.
Proof.
  assert (Hb : forall n b, n = N.of_nat (b2n b) -> byte_of n = b).
  { intros n b ->. apply b2n_inj. pose proof (b2n_lt b). rewrite byte_of_small by lia. lia. }
  assert (Hdiv : forall a b m, (b < m -> (a * m + b) / m = a)%N) by (intros a b m H; rewrite N.div_add_l by lia; rewrite N.div_small by exact H; lia).
  assert (Hmod : forall a b m, (b < m -> (a * m + b) mod m = b)%N) by (intros a b m H; rewrite N.add_comm, N.mod_add by lia; apply N.mod_small, H).
  intros H. destruct H as [a Ha|a b Ha Hb1|a b c Ha Hb1 Hc L1 L2|a b c d Ha Hb1 Hc Hd L1 L2]; cbn [code_point]; unfold cont_bits, utf8_of.
  - destruct (N.ltb_spec (N.of_nat (b2n a)) 128) as [_|K]; [|lia]. f_equal. apply Hb. reflexivity.
  - set (v := ((N.of_nat (b2n a) - 192) * 64 + (N.of_nat (b2n b) - 128))%N).
    assert (Hd : (v / 64 = N.of_nat (b2n a) - 192)%N) by (apply Hdiv; lia). assert (Hm : (v mod 64 = N.of_nat (b2n b) - 128)%N) by (apply Hmod; lia).
    destruct (N.ltb_spec v 128) as [K|_]; [unfold v in K; lia|]. destruct (N.ltb_spec v 2048) as [_|K]; [|unfold v in K; lia].
    rewrite Hd, Hm. f_equal; [apply Hb; lia|]. f_equal. apply Hb; lia.
  - set (v := ((N.of_nat (b2n a) - 224) * 4096 + (N.of_nat (b2n b) - 128) * 64 + (N.of_nat (b2n c) - 128))%N).
    assert (Ev : (v = ((N.of_nat (b2n a) - 224) * 64 + (N.of_nat (b2n b) - 128)) * 64 + (N.of_nat (b2n c) - 128))%N) by (unfold v; lia).
    assert (Hm : (v mod 64 = N.of_nat (b2n c) - 128)%N) by (rewrite Ev; apply Hmod; lia).
    assert (Hd : (v / 64 = (N.of_nat (b2n a) - 224) * 64 + (N.of_nat (b2n b) - 128))%N) by (rewrite Ev; apply Hdiv; lia).
    assert (Hm2 : ((v / 64) mod 64 = N.of_nat (b2n b) - 128)%N) by (rewrite Hd; apply Hmod; lia).
    assert (Hd2 : (v / 4096 = N.of_nat (b2n a) - 224)%N) by (change 4096%N with (64 * 64)%N; rewrite <- N.div_div by lia; rewrite Hd; apply Hdiv; lia).
    destruct (N.ltb_spec v 128) as [K|_]; [unfold v in K; lia|]. destruct (N.ltb_spec v 2048) as [K|_]; [unfold v in K; lia|].
    destruct (N.ltb_spec v 65536) as [_|K]; [|unfold v in K; lia].
    rewrite Hd2, Hm2, Hm. f_equal; [apply Hb; lia|]. f_equal; [apply Hb; lia|]. f_equal. apply Hb; lia.
  - set (v := ((N.of_nat (b2n a) - 240) * 262144 + (N.of_nat (b2n b) - 128) * 4096 + (N.of_nat (b2n c) - 128) * 64 + (N.of_nat (b2n d) - 128))%N).
    assert (Ev : (v = (((N.of_nat (b2n a) - 240) * 64 + (N.of_nat (b2n b) - 128)) * 64 + (N.of_nat (b2n c) - 128)) * 64 + (N.of_nat (b2n d) - 128))%N) by (unfold v; lia).
    assert (Hm : (v mod 64 = N.of_nat (b2n d) - 128)%N) by (rewrite Ev; apply Hmod; lia).
    assert (Hdd : (v / 64 = ((N.of_nat (b2n a) - 240) * 64 + (N.of_nat (b2n b) - 128)) * 64 + (N.of_nat (b2n c) - 128))%N) by (rewrite Ev; apply Hdiv; lia).
    assert (Hm2 : ((v / 64) mod 64 = N.of_nat (b2n c) - 128)%N) by (rewrite Hdd; apply Hmod; lia).
    assert (Hd2 : (v / 4096 = (N.of_nat (b2n a) - 240) * 64 + (N.of_nat (b2n b) - 128))%N) by (change 4096%N with (64 * 64)%N; rewrite <- N.div_div by lia; rewrite Hdd; apply Hdiv; lia).
    assert (Hm3 : ((v / 4096) mod 64 = N.of_nat (b2n b) - 128)%N) by (rewrite Hd2; apply Hmod; lia).
    assert (Hd3 : (v / 262144 = N.of_nat (b2n a) - 240)%N) by (change 262144%N with (4096 * 64)%N; rewrite <- N.div_div by lia; rewrite Hd2; apply Hdiv; lia).
    destruct (N.ltb_spec v 128) as [K|_]; [unfold v in K; lia|]. destruct (N.ltb_spec v 2048) as [K|_]; [unfold v in K; lia|].
    destruct (N.ltb_spec v 65536) as [K|_]; [unfold v in K; lia|].
    rewrite Hd3, Hm3, Hm2, Hm. f_equal; [apply Hb; lia|]. f_equal; [apply Hb; lia|]. f_equal; [apply Hb; lia|]. f_equal. apply Hb; lia.
Qed.

Lemma debug_char_prefix c c' r r' : utf8_char c -> utf8_char c' -> debug_char plain c ++ r = debug_char plain c' ++ r' -> c = c' /\ r = r'.
Proof.
  intros Hc Hc' E. unfold debug_char in E. rewrite <- !app_assoc in E. apply app_inv_head in E.
  apply (escape_prefix plain x27 (or_intror eq_refl)) in E as [-> E]; try assumption. cbn [app] in E. injection E as ->. auto.
Qed.

Lemma count_lines_prefix (l l' : list (nat * nat)) r r' :
  (forall v n, In (v, n) l -> v < 256) -> (forall v n, In (v, n) l' -> v < 256) ->
  let line := fun p => debug_char plain (utf8_of (N.of_nat (fst p))) ++ [x20] ++ decimal (snd p) ++ [x0a] in
  flat_map line l ++ x4d :: r = flat_map line l' ++ x4d :: r' -> l = l' /\ r = r'.
Proof.
  cbv zeta. revert l'. induction l as [|(v & n) l IH]; intros [|(v' & n') l'] Hl Hl' E.
  - cbn in E. injection E as ->. auto.
  - exfalso. cbn in E. discriminate E.
  - exfalso. cbn in E. discriminate E.
  - cbn [flat_map fst snd] in E. rewrite <- !app_assoc in E.
    destruct (low_char v) as [C1 P1]; [apply (Hl v n); left; reflexivity|]. destruct (low_char v') as [C2 P2]; [apply (Hl' v' n'); left; reflexivity|].
    apply debug_char_prefix in E as [Ec E]; try assumption. cbn [app] in E. injection E as E. apply decimal_split in E as (En & _ & E); [|nodigit|nodigit].
    apply IH in E as [-> ->]; [|intros; eapply Hl; right; eassumption|intros; eapply Hl'; right; eassumption].
    assert (v = v') as -> by (apply Nat2N.inj; congruence). subst. auto.
Qed.

(** What is printed for a valid text tells the number of its characters, how often each character
    below 256 occurs, and which is the largest one above, if any. *)
Theorem C90_printed_counts : forall file file' total low top total' low' top',
  utf8 file -> utf8 file' -> count_chars file = Ret (total, low, top) -> count_chars file' = Ret (total', low', top') ->
  count_output plain total low top = count_output plain total' low' top' ->
  length (chars file) = length (chars file') /\
  (forall v, (v < 256)%N -> occurrences v (chars file) = occurrences v (chars file')) /\ top = top'.
Proof.
  intros file file' total low top total' low' top' Hu Hu' E E' Eo.
  destruct (C48_character_counts file Hu) as (t1 & l1 & m1 & E1 & T1 & L1 & _ & _ & M1).
  destruct (C48_character_counts file' Hu') as (t2 & l2 & m2 & E2 & T2 & L2 & _ & _ & M2).
  rewrite E in E1. rewrite E' in E2. injection E1 as <- <- <-. injection E2 as <- <- <-.
  unfold count_output in Eo. apply app_inv_head in Eo. cbn [app] in Eo. apply decimal_split in Eo as (Et & _ & Eo); [|nodigit|nodigit].
  change (lit "Max char: ") with (x4d :: lit "ax char: ") in Eo. cbn [app] in Eo.
  apply count_lines_prefix in Eo as [El Eo]; [|intros v n H; apply L1 in H; tauto|intros v n H; apply L2 in H; tauto].
  assert (Hz : forall m f, utf8 f -> (m = 0%N \/ exists c, In c (chars f) /\ code_point c = m) -> exists c, utf8_char c /\ utf8_of m = c /\ code_point c = m).
  { intros m f Hf [-> |(c & Hc & <-)].
    - destruct (low_char 0) as [C P]; [lia|]. exists (utf8_of 0). auto.
    - exists c. destruct (chars_spec f Hf) as [Hall _]. rewrite Forall_forall in Hall. split; [apply Hall, Hc|]. split; [apply char_of_number, Hall, Hc|reflexivity]. }
  destruct (Hz _ _ Hu M1) as (c & Hc & Ec & Pc). destruct (Hz _ _ Hu' M2) as (c' & Hc' & Ec' & Pc').
  apply app_inv_head in Eo. rewrite Ec, Ec' in Eo. apply debug_char_prefix in Eo as [-> _]; try assumption.
  split; [congruence|]. split; [|congruence]. intros v Hv. rewrite <- (N2Nat.id v). assert (Hn : N.to_nat v < 256) by lia. generalize dependent (N.to_nat v). intros k Hk.
  subst low'. destruct (occurrences (N.of_nat k) (chars file)) as [|n] eqn:O1; destruct (occurrences (N.of_nat k) (chars file')) as [|n'] eqn:O2; [reflexivity| | |].
  - exfalso. assert (In (k, S n') low) as Hin by (apply L2; rewrite O2; repeat split; lia). apply L1 in Hin. lia.
  - exfalso. assert (In (k, S n) low) as Hin by (apply L1; rewrite O1; repeat split; lia). apply L2 in Hin. lia.
  - assert (In (k, S n) low) as Hin by (apply L1; rewrite O1; repeat split; lia). apply L2 in Hin. lia.
Qed.
End Tokens.

(** ** Concrete cases *)

(** printable ASCII only *)
Definition ascii_plain (c : bstr) : bool := match c with [b] => (32 <=? b2n b) && (b2n b <? 127) | _ => false end.

Example printed_examples :
  let quote := [x22] in
  show_token ascii_plain (Str (lit "ab")) = quote ++ lit "ab" ++ quote /\
  show_token ascii_plain (Str [x0a]) = quote ++ lit "\n" ++ quote /\
  show_token ascii_plain (Str [x01]) = quote ++ lit "\u{1}" ++ quote /\
  show_token ascii_plain (Str [xc3; xa9]) = quote ++ lit "\u{e9}" ++ quote /\
  show_token ascii_plain (Str [x22]) = quote ++ lit "\" ++ quote ++ quote /\
  show_token ascii_plain (Str [x27]) = quote ++ lit "'" ++ quote /\
  show_token ascii_plain (Str [xff; x00]) = lit "[255, 0]" /\
  show_token ascii_plain (Ext x0f) = lit "15".
Proof. repeat split. Qed.

(** One token replaced by two: both lists are sorted by what is printed, not by the tokens. *)
Example printed_step :
  let before := mkTS 2 TokenSetModel.Bits1 TokenSetModel.Raw false [Ext x00; Ext x01; Str (lit "ab"); Str (lit "c")] [] in
  let after := mkTS 2 TokenSetModel.Bits1 TokenSetModel.Raw false [Ext x00; Ext x01; Str (lit "c"); Str [xff]; Str (lit "abc")] [] in
  show_diff ascii_plain (fun l => rev l) before after =
  [x22] ++ lit "ab" ++ [x22] ++ lit " -> " ++ [x22] ++ lit "abc" ++ [x22] ++ lit " [255]".
Proof. reflexivity. Qed.

(** Without the order of the lists being fixed by sorting, the line would depend on the run; the
    theorem needs no more than that every iteration finds each member once. *)
Example orders : (forall l : list token, Permutation (rev l) l) /\ (forall l : list token, Permutation (id l) l).
Proof. split; intros l; [symmetry; apply Permutation_rev|reflexivity]. Qed.

Example printed_counts : exists total low top, count_chars (lit "aba") = Ret (total, low, top) /\ utf8 (lit "aba") /\
  count_output ascii_plain total low top = lit "Total: 3" ++ [x0a] ++ lit "'a' 2" ++ [x0a] ++ lit "'b' 1" ++ [x0a] ++ lit "Max char: '\0'" ++ [x0a].
Proof.
  assert (Hu : utf8 (lit "aba")) by (apply utf8_valid_spec; reflexivity).
  destruct (C48_character_counts (lit "aba") Hu) as (t & l & m & E & _).
  exists t, l, m. split; [exact E|]. split; [exact Hu|]. vm_compute in E. injection E as <- <- <-. reflexivity.
Qed.
