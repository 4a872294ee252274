(** * Reading JSON text: the part of serde_json's reader that [read_token_set]
    uses ([serde_json::from_reader] into a [Value], src/main.rs:99-107), and its
    agreement with [show].

    Not modelled: numbers that overflow the range of floating point numbers
    (serde_json reports an error, here they are kept as text); read errors. *)
From Coq Require Import String Ascii Decimal DecimalString DecimalNat.
From Verif Require Import Base BaseLemmas TokenSetModel TokenizerModel Utf8 JsonModel SortLemmas TokenSetProof2.
Local Open Scope list_scope.
Local Notation length := List.length.

(** ** White space *)
Definition is_ws (b : byte) : bool :=
  Byte.eqb b x20 || Byte.eqb b x0a || Byte.eqb b x09 || Byte.eqb b x0d.
Fixpoint skip_ws (s : bstr) : bstr :=
  match s with
  | b :: r => if is_ws b then skip_ws r else s
  | [] => []
  end.

(** ** Numbers: [-] int [frac] [exp] *)
Fixpoint take_digits (s : bstr) : bstr * bstr :=
  match s with
  | b :: r => if is_digit b then let '(d, r') := take_digits r in (b :: d, r') else ([], s)
  | [] => ([], [])
  end.

(** digits without leading zero *)
Definition read_int (s : bstr) : option (bstr * bstr) :=
  match take_digits s with
  | ([], _) => None
  | (b :: d, r) => if Byte.eqb b x30 && negb (bstr_eqb d []) then None else Some (b :: d, r)
  end.

(** [.] digits, at least one, if there is a dot *)
Definition read_frac (s : bstr) : option (bstr * bstr) :=
  match s with
  | b :: r =>
      if Byte.eqb b x2e then
        match take_digits r with
        | ([], _) => None
        | (d, r') => Some (b :: d, r')
        end
      else Some ([], s)
  | [] => Some ([], [])
  end.

(** [e] or [E], a sign or none, digits, at least one *)
Definition read_exp (s : bstr) : option (bstr * bstr) :=
  match s with
  | b :: r =>
      if Byte.eqb b x65 || Byte.eqb b x45 then
        let '(sg, r1) := match r with
                         | c :: r1 => if Byte.eqb c x2b || Byte.eqb c x2d then ([c], r1) else ([], r)
                         | [] => ([], r)
                         end in
        match take_digits r1 with
        | ([], _) => None
        | (d, r2) => Some (b :: sg ++ d, r2)
        end
      else Some ([], s)
  | [] => Some ([], [])
  end.

Definition read_sign (s : bstr) : bstr * bstr :=
  match s with
  | b :: r => if Byte.eqb b x2d then ([b], r) else ([], s)
  | [] => ([], s)
  end.

Definition read_number (s : bstr) : option (json * bstr) :=
  let '(sg, s1) := read_sign s in
  match read_int s1 with
  | None => None
  | Some (i, s2) =>
      match read_frac s2 with
      | None => None
      | Some (f, s3) =>
          match read_exp s3 with
          | None => None
          | Some (e, s4) =>
              Some (if bstr_eqb (sg ++ f ++ e) [] && (digits_value i <? 2 ^ 64)%N
                    then JNum (N.to_nat (digits_value i)) else JReal (sg ++ i ++ f ++ e), s4)
          end
      end
  end.

(** ** Strings *)
Definition hex_val (b : byte) : option N :=
  let n := b2n b in
  if is_digit b then Some (N.of_nat (n - 48))
  else if (97 <=? n) && (n <=? 102) then Some (N.of_nat (n - 87))
  else if (65 <=? n) && (n <=? 70) then Some (N.of_nat (n - 55))
  else None.
Definition hex4 (a b c d : byte) : option N :=
  match hex_val a, hex_val b, hex_val c, hex_val d with
  | Some w, Some x, Some y, Some z => Some (((w * 16 + x) * 16 + y) * 16 + z)%N
  | _, _, _, _ => None
  end.

(** UTF-8 form of a code point *)
Definition utf8_of (n : N) : bstr :=
  let b n := n2b (N.to_nat n) in
  (if n <? 128 then [b n]
   else if n <? 2048 then [b (192 + n / 64); b (128 + n mod 64)]
   else if n <? 65536 then [b (224 + n / 4096); b (128 + n / 64 mod 64); b (128 + n mod 64)]
   else [b (240 + n / 262144); b (128 + n / 4096 mod 64); b (128 + n / 64 mod 64); b (128 + n mod 64)])%N.

Definition simple_escape (e : byte) : option byte :=
  match e with
  | x22 => Some x22 | x5c => Some x5c | x2f => Some x2f
  | x62 => Some x08 | x66 => Some x0c | x6e => Some x0a | x72 => Some x0d | x74 => Some x09
  | _ => None
  end.

Definition put (t : bstr) (o : option (bstr * bstr)) : option (bstr * bstr) :=
  match o with Some (u, r) => Some (t ++ u, r) | None => None end.

(** what follows the opening quote, up to and including the closing quote *)
Fixpoint str_body (s : bstr) : option (bstr * bstr) :=
  match s with
  | [] => None
  | b :: r =>
      if Byte.eqb b quote then Some ([], r)
      else if Byte.eqb b x5c then
        match r with
        | [] => None
        | e :: r1 =>
            if Byte.eqb e x75 then
              match r1 with
              | h1 :: h2 :: h3 :: h4 :: r2 =>
                  match hex4 h1 h2 h3 h4 with
                  | None => None
                  | Some n =>
                      if ((56320 <=? n) && (n <=? 57343))%N then None
                      else if ((55296 <=? n) && (n <=? 56319))%N then
                        match r2 with
                        | c1 :: c2 :: g1 :: g2 :: g3 :: g4 :: r3 =>
                            if Byte.eqb c1 x5c && Byte.eqb c2 x75 then
                              match hex4 g1 g2 g3 g4 with
                              | Some m =>
                                  if ((56320 <=? m) && (m <=? 57343))%N
                                  then put (utf8_of (65536 + (n - 55296) * 1024 + (m - 56320))%N) (str_body r3)
                                  else None
                              | None => None
                              end
                            else None
                        | _ => None
                        end
                      else put (utf8_of n) (str_body r2)
                  end
              | _ => None
              end
            else match simple_escape e with
                 | Some c => put [c] (str_body r1)
                 | None => None
                 end
        end
      else if b2n b <? 32 then None
      else put [b] (str_body r)
  end.

Definition read_str (s : bstr) : option (bstr * bstr) :=
  match str_body s with
  | Some (t, r) => if utf8_valid t then Some (t, r) else None
  | None => None
  end.

(** ** Values.  [depth] is serde_json's [remaining_depth]; [fuel] bounds the
    recursion, twice the length of the text is enough (see [parse_show]). *)
Fixpoint strip (p s : bstr) : option bstr :=
  match p, s with
  | [], _ => Some s
  | x :: p', y :: s' => if Byte.eqb x y then strip p' s' else None
  | _, [] => None
  end.

Fixpoint pvalue (fuel depth : nat) (s : bstr) : option (json * bstr) :=
  match fuel with
  | O => None
  | S fuel =>
      match skip_ws s with
      | [] => None
      | b :: r =>
          if Byte.eqb b x6e then option_map (fun r' => (JNull, r')) (strip (lit "ull") r)
          else if Byte.eqb b x74 then option_map (fun r' => (JBool true, r')) (strip (lit "rue") r)
          else if Byte.eqb b x66 then option_map (fun r' => (JBool false, r')) (strip (lit "alse") r)
          else if Byte.eqb b quote then option_map (fun p => (JStr (fst p), snd p)) (read_str r)
          else if Byte.eqb b x5b then
            match depth with
            | S (S d) => option_map (fun p => (JArr (fst p), snd p)) (pitems fuel (S d) true r)
            | _ => None
            end
          else if Byte.eqb b x7b then
            match depth with
            | S (S d) => option_map (fun p => (JObj (fold_left (fun m kv => obj_set (fst kv) (snd kv) m) (fst p) []), snd p))
                                    (pfields fuel (S d) true r)
            | _ => None
            end
          else if Byte.eqb b x2d || is_digit b then read_number (b :: r)
          else None
      end
  end
with pitems (fuel depth : nat) (first : bool) (s : bstr) : option (list json * bstr) :=
  match fuel with
  | O => None
  | S fuel =>
      match skip_ws s with
      | [] => None
      | b :: r =>
          if Byte.eqb b x5d then Some ([], r)
          else if first || Byte.eqb b x2c then
            match pvalue fuel depth (if first then b :: r else r) with
            | None => None
            | Some (v, r') => option_map (fun p => (v :: fst p, snd p)) (pitems fuel depth false r')
            end
          else None
      end
  end
with pfields (fuel depth : nat) (first : bool) (s : bstr) : option (list (bstr * json) * bstr) :=
  match fuel with
  | O => None
  | S fuel =>
      match skip_ws s with
      | [] => None
      | b :: r =>
          if Byte.eqb b x7d then Some ([], r)
          else if first || Byte.eqb b x2c then
            match skip_ws (if first then b :: r else r) with
            | q :: r1 =>
                if Byte.eqb q quote then
                  match read_str r1 with
                  | None => None
                  | Some (k, r2) =>
                      match skip_ws r2 with
                      | c :: r3 =>
                          if Byte.eqb c x3a then
                            match pvalue fuel depth r3 with
                            | None => None
                            | Some (v, r') => option_map (fun p => ((k, v) :: fst p, snd p)) (pfields fuel depth false r')
                            end
                          else None
                      | [] => None
                      end
                  end
                else None
            | [] => None
            end
          else None
      end
  end.

(** [serde_json::from_reader]: one value, then only white space *)
Definition parse_json (s : bstr) : option json :=
  match pvalue (2 * length s + 2) 128 s with
  | Some (v, r) => match skip_ws r with [] => Some v | _ => None end
  | None => None
  end.

(** ** Values that are texts of themselves *)
Definition max_depth (l : list nat) : nat := fold_right Nat.max 0 l.
Fixpoint jdepth (v : json) : nat :=
  match v with
  | JArr l => S (max_depth (map jdepth l))
  | JObj fs => S (max_depth (map (fun kv => jdepth (snd kv)) fs))
  | _ => 0
  end.

Inductive jwf : json -> Prop :=
| wf_null : jwf JNull
| wf_bool b : jwf (JBool b)
| wf_num n : (N.of_nat n < 2 ^ 64)%N -> jwf (JNum n)
| wf_real t : read_number t = Some (JReal t, []) -> jwf (JReal t)
| wf_str s : utf8 s -> jwf (JStr s)
| wf_arr l : Forall jwf l -> jwf (JArr l)
| wf_obj fs : Forall (fun kv => utf8 (fst kv) /\ jwf (snd kv)) fs ->
    StronglySorted (fun a b => bstr_cmp (fst a) (fst b) = Lt) fs -> jwf (JObj fs).

(** ** Recursion over values *)
Section Ind.
Variable P : json -> Prop.
Hypotheses (Hnull : P JNull) (Hbool : forall b, P (JBool b)) (Hnum : forall n, P (JNum n)) (Hreal : forall t, P (JReal t))
  (Hstr : forall s, P (JStr s)) (Harr : forall l, Forall P l -> P (JArr l))
  (Hobj : forall fs, Forall (fun kv => P (snd kv)) fs -> P (JObj fs)).
Fixpoint json_ind2 (v : json) : P v :=
  match v with
  | JNull => Hnull
  | JBool b => Hbool b
  | JNum n => Hnum n
  | JReal t => Hreal t
  | JStr s => Hstr s
  | JArr l => Harr l ((fix go l : Forall P l :=
      match l with [] => Forall_nil _ | x :: r => Forall_cons _ (json_ind2 x) (go r) end) l)
  | JObj fs => Hobj fs ((fix go l : Forall (fun kv => P (snd kv)) l :=
      match l with [] => Forall_nil _ | x :: r => Forall_cons _ (json_ind2 (snd x)) (go r) end) fs)
  end.
End Ind.

Fixpoint show_items (first : bool) (l : list json) : bstr :=
  match l with
  | [] => []
  | x :: r => (if first then [] else lit ",") ++ show x ++ show_items false r
  end.
Fixpoint show_fields (first : bool) (l : list (bstr * json)) : bstr :=
  match l with
  | [] => []
  | (k, x) :: r => (if first then [] else lit ",") ++ show_str k ++ lit ":" ++ show x ++ show_fields false r
  end.

Lemma show_arr l : show (JArr l) = x5b :: show_items true l ++ [x5d].
Proof. reflexivity. Qed.
Lemma show_obj l : show (JObj l) = x7b :: show_fields true l ++ [x7d].
Proof. reflexivity. Qed.

(** ** Numbers *)
Lemma byte_of_ascii_inj a b : byte_of_ascii a = byte_of_ascii b -> a = b.
Proof. intros H. rewrite <- (ascii_of_byte_of_ascii a), H. apply ascii_of_byte_of_ascii. Qed.

Lemma lit_inj a b : lit a = lit b -> a = b.
Proof.
  unfold lit. revert b; induction a as [|x a IH]; intros [|y b] H; cbn in H; try discriminate; auto.
  injection H as H1 H2. apply byte_of_ascii_inj in H1 as ->. f_equal. auto.
Qed.

Lemma lit_app a b : lit (a ++ b)%string = lit a ++ lit b.
Proof. induction a as [|x a IH]; cbn; [reflexivity|]. f_equal. exact IH. Qed.

Lemma digits_uint d : forallb is_digit (lit (NilEmpty.string_of_uint d)) = true.
Proof. induction d; cbn; auto. Qed.

Lemma show_nat_digits n : forallb is_digit (lit (show_nat n)) = true /\ lit (show_nat n) <> [].
Proof.
  rewrite show_nat_alt. split; [apply digits_uint|].
  pose proof (to_uint_nonnil n). destruct (Nat.to_uint n); [congruence|discriminate..].
Qed.

(** bytes that cannot continue a number *)
Definition nstop (r : bstr) : Prop :=
  match r with
  | [] => True
  | b :: _ => is_digit b = false /\ Byte.eqb b x2e = false /\ Byte.eqb b x65 = false /\ Byte.eqb b x45 = false
  end.

Lemma nstop_digit r : nstop r -> match r with [] => True | b :: _ => is_digit b = false end.
Proof. destruct r; cbn; tauto. Qed.

Lemma take_digits_eq s : forall d r, take_digits s = (d, r) ->
  s = d ++ r /\ forallb is_digit d = true /\ match r with [] => True | b :: _ => is_digit b = false end.
Proof.
  induction s as [|b s IH]; intros d r H; cbn in H; [injection H as <- <-; auto|].
  destruct (is_digit b) eqn:E.
  - destruct (take_digits s) as (d', r') eqn:E'. injection H as <- <-.
    destruct (IH _ _ eq_refl) as (-> & H1 & H2). cbn. rewrite E. auto.
  - injection H as <- <-. cbn. auto.
Qed.

Lemma take_digits_app d r : forallb is_digit d = true ->
  match r with [] => True | b :: _ => is_digit b = false end -> take_digits (d ++ r) = (d, r).
Proof.
  induction d as [|b d IH]; cbn; intros H Hr.
  - destruct r as [|b r]; [reflexivity|]. cbn. rewrite Hr. reflexivity.
  - apply andb_true_iff in H as (Hb & H). rewrite Hb, IH; auto.
Qed.

Lemma take_digits_ext s d r x : take_digits s = (d, r) -> (r = [] -> nstop x) ->
  take_digits (s ++ x) = (d, r ++ x).
Proof.
  intros H Hx. apply take_digits_eq in H as (-> & H1 & H2). rewrite <- app_assoc.
  apply take_digits_app; [exact H1|]. destruct r; [apply nstop_digit; auto|exact H2].
Qed.

Lemma read_int_ext s i r x : read_int s = Some (i, r) -> (r = [] -> nstop x) ->
  read_int (s ++ x) = Some (i, r ++ x).
Proof.
  unfold read_int. intros H Hx. destruct (take_digits s) as (d, r') eqn:E.
  destruct d as [|b d]; [discriminate|]. destruct (Byte.eqb b x30 && negb (bstr_eqb d [])) eqn:Z; [discriminate|].
  injection H as <- <-. rewrite (take_digits_ext _ _ _ _ E Hx), Z. reflexivity.
Qed.

Lemma read_frac_ext s i r x : read_frac s = Some (i, r) -> (r = [] -> nstop x) ->
  read_frac (s ++ x) = Some (i, r ++ x) /\ (s = [] -> r = []).
Proof.
  intros H Hx. destruct s as [|b s]; cbn in H.
  - injection H as <- <-. split; [|auto]. specialize (Hx eq_refl).
    destruct x as [|c x]; [reflexivity|]. cbn in Hx |- *. destruct Hx as (_ & -> & _). reflexivity.
  - split; [|discriminate]. cbn. destruct (Byte.eqb b x2e).
    + destruct (take_digits s) as (d, r') eqn:E. destruct d as [|c d]; [discriminate|].
      injection H as <- <-. rewrite (take_digits_ext _ _ _ _ E Hx). reflexivity.
    + injection H as <- <-. reflexivity.
Qed.

Lemma read_exp_ext s i r x : read_exp s = Some (i, r) -> (r = [] -> nstop x) ->
  read_exp (s ++ x) = Some (i, r ++ x) /\ (s = [] -> r = []).
Proof.
  intros H Hx. destruct s as [|b s]; cbn in H.
  - injection H as <- <-. split; [|auto]. specialize (Hx eq_refl).
    destruct x as [|c x]; [reflexivity|]. cbn in Hx |- *. destruct Hx as (_ & _ & -> & ->). reflexivity.
  - split; [|discriminate]. cbn [app read_exp]. destruct (Byte.eqb b x65 || Byte.eqb b x45).
    + destruct s as [|c s]; [discriminate|]. cbn [app].
      destruct (Byte.eqb c x2b || Byte.eqb c x2d).
      * destruct (take_digits s) as (d, r') eqn:E. destruct d as [|y d]; [discriminate|].
        injection H as <- <-. rewrite (take_digits_ext _ _ _ _ E Hx). reflexivity.
      * destruct (take_digits (c :: s)) as (d, r') eqn:E. destruct d as [|y d]; [discriminate|].
        injection H as <- <-. rewrite app_comm_cons, (take_digits_ext _ _ _ _ E Hx). reflexivity.
    + injection H as <- <-. reflexivity.
Qed.

Lemma read_int_nonempty s i r : read_int s = Some (i, r) -> s <> [].
Proof. intros H ->. discriminate. Qed.

Lemma read_number_ext s v r x : read_number s = Some (v, r) -> (r = [] -> nstop x) ->
  read_number (s ++ x) = Some (v, r ++ x).
Proof.
  unfold read_number. intros H Hx.
  destruct (read_sign s) as (sg, s1) eqn:Eh.
  destruct (read_int s1) as [(i, s2)|] eqn:Ei; [|discriminate].
  destruct (read_frac s2) as [(f, s3)|] eqn:Ef; [|discriminate].
  destruct (read_exp s3) as [(e, s4)|] eqn:Ee; [|discriminate].
  assert (E4 : s4 = r) by congruence. subst s4.
  destruct (read_exp_ext _ _ _ _ Ee Hx) as (Ee' & H3).
  destruct (read_frac_ext _ _ _ x Ef) as (Ef' & H2); [auto|].
  assert (Ei' := read_int_ext _ _ _ x Ei (fun z => Hx (H3 (H2 z)))).
  assert (Ehx : read_sign (s ++ x) = (sg, s1 ++ x)).
  { destruct s as [|b s].
    - cbn in Eh. injection Eh as <- <-. discriminate.
    - cbn in Eh |- *. destruct (Byte.eqb b x2d); injection Eh as <- <-; reflexivity. }
  rewrite Ehx, Ei', Ef', Ee'. injection H as <-. reflexivity.
Qed.

(** *** the digits of a natural number *)
Lemma digits_value_uint d : forall acc,
  fold_left (fun n b => (10 * n + N.of_nat (b2n b - 48))%N) (lit (NilEmpty.string_of_uint d)) (N.of_nat acc)
  = N.of_nat (Nat.of_uint_acc d acc).
Proof.
  induction d; intros acc; [reflexivity|..];
    cbn [NilEmpty.string_of_uint Nat.of_uint_acc];
    match goal with |- context [lit (String ?a ?t)] => change (lit (String a t)) with (byte_of_ascii a :: lit t) end;
    cbn [fold_left]; rewrite <- IHd; f_equal; rewrite Nat.tail_mul_spec;
    match goal with |- context [b2n (byte_of_ascii ?a)] =>
      let v := eval vm_compute in (b2n (byte_of_ascii a)) in change (b2n (byte_of_ascii a)) with v end; lia.
Qed.

Lemma digits_value_show n : digits_value (lit (show_nat n)) = N.of_nat n.
Proof.
  unfold digits_value. change 0%N with (N.of_nat 0). rewrite show_nat_alt, digits_value_uint.
  f_equal. change (Nat.of_uint (Nat.to_uint n) = n). apply Unsigned.of_to.
Qed.

Lemma show_nat_no_zero n : match lit (show_nat n) with
  | b :: d => Byte.eqb b x30 && negb (bstr_eqb d []) = false
  | [] => False
  end.
Proof.
  rewrite show_nat_alt.
  assert (E : Nat.to_uint n = unorm (Nat.to_uint n)).
  { rewrite <- Unsigned.to_of, Unsigned.of_to. reflexivity. }
  rewrite E. unfold unorm. destruct (nzhead (Nat.to_uint n)) eqn:Z; try reflexivity.
  exfalso. revert Z. generalize (Nat.to_uint n). intros d. induction d; cbn; intros; try discriminate. auto.
Qed.

Lemma read_show_nat n : (N.of_nat n < 2 ^ 64)%N -> read_number (lit (show_nat n)) = Some (JNum n, []).
Proof.
  intros Hn. pose proof (show_nat_digits n) as (Hd & Hne). pose proof (show_nat_no_zero n) as Hz.
  pose proof (digits_value_show n) as Hv. unfold read_number, read_sign.
  destruct (lit (show_nat n)) as [|b d] eqn:E; [destruct Hz|].
  assert (Hb : Byte.eqb b x2d = false).
  { cbn in Hd. apply andb_true_iff in Hd as (Hd & _). destruct b; try discriminate; reflexivity. }
  rewrite Hb. unfold read_int. rewrite <- (app_nil_r (b :: d)) at 1.
  rewrite (take_digits_app (b :: d) [] Hd I), Hz. cbn [read_frac read_exp app].
  cbn [bstr_eqb andb]. rewrite Hv, (proj2 (N.ltb_lt _ _) Hn), Nat2N.id. reflexivity.
Qed.

(** ** Strings *)
Lemma str_body_escape b t : str_body (escape b ++ t) = put [b] (str_body t).
Proof. destruct b; reflexivity. Qed.

Lemma str_body_show s r : str_body (flat_map escape s ++ quote :: r) = Some (s, r).
Proof.
  induction s as [|b s IH]; [reflexivity|]. cbn [flat_map]. rewrite <- app_assoc, str_body_escape, IH. reflexivity.
Qed.

Lemma read_str_show s r : utf8 s -> read_str (flat_map escape s ++ quote :: r) = Some (s, r).
Proof.
  intros H. unfold read_str. rewrite str_body_show. apply utf8_valid_spec in H. rewrite H. reflexivity.
Qed.

(** ** White space *)
Definition no_ws (s : bstr) : Prop := match s with [] => True | b :: _ => is_ws b = false end.
Lemma skip_no_ws s : no_ws s -> skip_ws s = s.
Proof. destruct s as [|b s]; cbn; [reflexivity|]. intros ->. reflexivity. Qed.

(** ** Objects *)
Lemma obj_set_last k v m : Forall (fun kv => bstr_cmp (fst kv) k = Lt) m -> obj_set k v m = m ++ [(k, v)].
Proof.
  induction 1 as [|(k', v') m H _ IH]; [reflexivity|]. cbn in *.
  rewrite bstr_cmp_opp, H. cbn. rewrite IH. reflexivity.
Qed.

Lemma fold_obj_set fs : forall m, StronglySorted (fun a b => bstr_cmp (fst a) (fst b) = Lt) (m ++ fs) ->
  fold_left (fun m kv => obj_set (fst kv) (snd kv) m) fs m = m ++ fs.
Proof.
  induction fs as [|(k, v) fs IH]; intros m H; cbn; [rewrite app_nil_r; reflexivity|].
  rewrite obj_set_last.
  - rewrite IH; rewrite <- app_assoc; [reflexivity|exact H].
  - clear IH. induction m as [|a m IH]; [constructor|]. cbn in H. inversion H as [|? ? H1 H2]; subst.
    constructor; [|apply IH; exact H1]. rewrite Forall_forall in H2. apply (H2 (k, v)).
    apply in_app_iff; right; left; reflexivity.
Qed.

(** ** Reading what [show] writes *)
Definition number_head (b : byte) : bool := Byte.eqb b x2d || is_digit b.

Lemma read_number_head s v r : read_number s = Some (v, r) -> exists b t, s = b :: t /\ number_head b = true.
Proof.
  unfold read_number, read_sign. destruct s as [|b s]; [discriminate|]. unfold number_head.
  intros H. exists b, s. split; [reflexivity|].
  destruct (Byte.eqb b x2d) eqn:E; [reflexivity|]. cbn [orb].
  destruct (read_int (b :: s)) as [(i, s2)|] eqn:Ei; [|discriminate].
  unfold read_int in Ei. cbn [take_digits] in Ei. destruct (is_digit b); [reflexivity|discriminate].
Qed.

Lemma show_head v : jwf v -> exists b t, show v = b :: t /\ is_ws b = false /\ Byte.eqb b x5d = false.
Proof.
  assert (N : forall b, number_head b = true -> is_ws b = false /\ Byte.eqb b x5d = false)
    by (intros b; destruct b; cbn; try discriminate; auto).
  intros H; destruct H as [|[]|n Hn|t Ht|s Hs|l Hl|fs Hf Hs];
    try (eexists; eexists; split; [reflexivity|split; reflexivity]).
  - cbn [show]. apply read_show_nat, read_number_head in Hn as (b & u & -> & Hb). eauto.
  - cbn [show]. apply read_number_head in Ht as (b & u & -> & Hb). eauto.
Qed.

Lemma pvalue_number F d s v r : read_number s = Some (v, r) -> pvalue (S F) d s = Some (v, r).
Proof.
  intros H. destruct (read_number_head _ _ _ H) as (b & t & -> & Hb).
  cbn [pvalue]. assert (W : skip_ws (b :: t) = b :: t) by (destruct b; try discriminate; reflexivity).
  rewrite W. unfold number_head in Hb.
  assert (Z : Byte.eqb b x6e = false /\ Byte.eqb b x74 = false /\ Byte.eqb b x66 = false /\
              Byte.eqb b quote = false /\ Byte.eqb b x5b = false /\ Byte.eqb b x7b = false)
    by (destruct b; try discriminate; repeat split; reflexivity).
  destruct Z as (-> & -> & -> & -> & -> & ->). rewrite Hb. exact H.
Qed.

Definition reads (v : json) : Prop := forall F d r,
  2 * length (show v) + 1 <= F -> jdepth v < d -> nstop r -> pvalue F d (show v ++ r) = Some (v, r).

Lemma nstop_items l r : nstop (show_items false l ++ x5d :: r).
Proof. destruct l; cbn; auto. Qed.
Lemma nstop_fields l r : nstop (show_fields false l ++ x7d :: r).
Proof. destruct l as [|[k v] l]; cbn; auto. Qed.

Lemma pitems_show l : Forall (fun v => jwf v /\ reads v) l -> forall first F d r,
  2 * length (show_items first l) + 2 <= F -> max_depth (map jdepth l) < d ->
  pitems F d first (show_items first l ++ x5d :: r) = Some (l, r).
Proof.
  induction 1 as [|v l (Hw & Hv) _ IH]; intros first F d r HF Hd.
  - destruct F as [|F]; [cbn in HF; lia|]. reflexivity.
  - destruct (show_head v Hw) as (b & t & Eb & Hws & Hnb).
    destruct F as [|F]; [cbn in HF; lia|]. cbn [show_items] in HF |- *. cbn [map max_depth fold_right] in Hd.
    rewrite !app_length in HF. rewrite <- !app_assoc.
    assert (L : 1 <= length (show v)) by (rewrite Eb; cbn; lia).
    assert (R : pvalue F d (show v ++ show_items false l ++ x5d :: r)
                = Some (v, show_items false l ++ x5d :: r)).
    { apply Hv; [lia| |apply nstop_items]. eapply Nat.le_lt_trans; [|exact Hd]. apply Nat.le_max_l. }
    assert (I : pitems F d false (show_items false l ++ x5d :: r) = Some (l, r)).
    { apply IH; [lia|]. eapply Nat.le_lt_trans; [|exact Hd]. apply Nat.le_max_r. }
    destruct first.
    + cbn [app pitems]. rewrite Eb in R |- *. cbn [app] in R |- *. cbn [skip_ws]. rewrite Hws, Hnb. cbn [orb].
      rewrite R, I. reflexivity.
    + change (lit "," ++ show v ++ show_items false l ++ x5d :: r)
        with (x2c :: show v ++ show_items false l ++ x5d :: r).
      cbn [pitems]. change (skip_ws (x2c :: show v ++ show_items false l ++ x5d :: r))
        with (x2c :: show v ++ show_items false l ++ x5d :: r). cbv beta iota.
      change (Byte.eqb x2c x5d) with false. change (Byte.eqb x2c x2c) with true. cbn [orb].
      rewrite R, I. reflexivity.
Qed.

Lemma pfields_show l : Forall (fun kv => utf8 (fst kv) /\ jwf (snd kv) /\ reads (snd kv)) l -> forall first F d r,
  2 * length (show_fields first l) + 2 <= F -> max_depth (map (fun kv => jdepth (snd kv)) l) < d ->
  pfields F d first (show_fields first l ++ x7d :: r) = Some (l, r).
Proof.
  induction 1 as [|(k, v) l (Hk & Hw & Hv) _ IH]; intros first F d r HF Hd.
  - destruct F as [|F]; [cbn in HF; lia|]. reflexivity.
  - cbn [fst snd] in *. destruct F as [|F]; [cbn in HF; lia|].
    cbn [show_fields] in HF |- *. cbn [map max_depth fold_right snd] in Hd.
    unfold show_str in HF |- *. rewrite !app_length in HF. rewrite <- !app_assoc.
    set (rest := show_fields false l ++ x7d :: r).
    assert (R : pvalue F d (show v ++ rest) = Some (v, rest)).
    { apply Hv; [lia| |apply nstop_fields]. eapply Nat.le_lt_trans; [|exact Hd]. apply Nat.le_max_l. }
    assert (I : pfields F d false rest = Some (l, r)).
    { apply IH; [cbn in HF; lia|]. eapply Nat.le_lt_trans; [|exact Hd]. apply Nat.le_max_r. }
    assert (K : read_str (flat_map escape k ++ [quote] ++ lit ":" ++ show v ++ rest)
                = Some (k, x3a :: show v ++ rest)).
    { exact (read_str_show k (x3a :: show v ++ rest) Hk). }
    clearbody rest. destruct first.
    + change ([] ++ [quote] ++ flat_map escape k ++ [quote] ++ lit ":" ++ show v ++ rest)
        with (quote :: flat_map escape k ++ [quote] ++ lit ":" ++ show v ++ rest).
      cbn [pfields]. change (skip_ws (quote :: flat_map escape k ++ [quote] ++ lit ":" ++ show v ++ rest))
        with (quote :: flat_map escape k ++ [quote] ++ lit ":" ++ show v ++ rest). cbv beta iota.
      change (Byte.eqb quote x7d) with false. cbn [orb]. cbv iota.
      change (skip_ws (quote :: flat_map escape k ++ [quote] ++ lit ":" ++ show v ++ rest))
        with (quote :: flat_map escape k ++ [quote] ++ lit ":" ++ show v ++ rest). cbv beta iota.
      change (Byte.eqb quote quote) with true. cbv iota. rewrite K.
      change (skip_ws (x3a :: show v ++ rest)) with (x3a :: show v ++ rest). cbv iota beta.
      change (Byte.eqb x3a x3a) with true. cbv iota. rewrite R, I. reflexivity.
    + change (lit "," ++ [quote] ++ flat_map escape k ++ [quote] ++ lit ":" ++ show v ++ rest)
        with (x2c :: quote :: flat_map escape k ++ [quote] ++ lit ":" ++ show v ++ rest).
      cbn [pfields]. change (skip_ws (x2c :: quote :: flat_map escape k ++ [quote] ++ lit ":" ++ show v ++ rest))
        with (x2c :: quote :: flat_map escape k ++ [quote] ++ lit ":" ++ show v ++ rest). cbv beta iota.
      change (Byte.eqb x2c x7d) with false. change (Byte.eqb x2c x2c) with true. cbn [orb]. cbv iota.
      change (skip_ws (quote :: flat_map escape k ++ [quote] ++ lit ":" ++ show v ++ rest))
        with (quote :: flat_map escape k ++ [quote] ++ lit ":" ++ show v ++ rest). cbv beta iota.
      change (Byte.eqb quote quote) with true. cbv iota. rewrite K.
      change (skip_ws (x3a :: show v ++ rest)) with (x3a :: show v ++ rest). cbv iota beta.
      change (Byte.eqb x3a x3a) with true. cbv iota. rewrite R, I. reflexivity.
Qed.

Lemma pvalue_show v : jwf v -> reads v.
Proof.
  induction v using json_ind2; intros W F d r HF Hd Hr; destruct F as [|F]; try lia.
  - reflexivity.
  - destruct b; reflexivity.
  - inversion W; subst. cbn [show]. apply pvalue_number. apply (read_number_ext _ _ [] r); [|auto].
    apply read_show_nat; assumption.
  - inversion W; subst. cbn [show]. apply pvalue_number. apply (read_number_ext _ _ [] r); auto.
  - inversion W; subst. cbn [show]. unfold show_str. rewrite <- !app_assoc.
    change ([quote] ++ flat_map escape s ++ [quote] ++ r) with (quote :: flat_map escape s ++ quote :: r).
    cbn [pvalue]. change (skip_ws (quote :: flat_map escape s ++ quote :: r)) with (quote :: flat_map escape s ++ quote :: r).
    cbv iota beta. change (Byte.eqb quote x6e) with false. change (Byte.eqb quote x74) with false.
    change (Byte.eqb quote x66) with false. change (Byte.eqb quote quote) with true. cbv iota.
    rewrite read_str_show by assumption. reflexivity.
  - inversion W as [| | | | |l' Hl|]; subst. rewrite show_arr in *. cbn [app].
    cbn [jdepth] in Hd. destruct d as [|[|d]]; try lia.
    cbn [pvalue skip_ws is_ws]. change (is_ws x5b) with false. cbv iota beta.
    change (Byte.eqb x5b x6e) with false. change (Byte.eqb x5b x74) with false.
    change (Byte.eqb x5b x66) with false. change (Byte.eqb x5b quote) with false.
    change (Byte.eqb x5b x5b) with true. cbv iota. rewrite <- app_assoc. cbn [app].
    cbn [length] in HF. rewrite app_length in HF. cbn [length] in HF.
    rewrite pitems_show; [reflexivity| |lia|lia].
    rewrite Forall_forall in *. auto.
  - inversion W as [| | | | | |fs' Hl Hs]; subst. rewrite show_obj in *. cbn [app].
    cbn [jdepth] in Hd. destruct d as [|[|d]]; try lia.
    cbn [pvalue skip_ws is_ws]. change (is_ws x7b) with false. cbv iota beta.
    change (Byte.eqb x7b x6e) with false. change (Byte.eqb x7b x74) with false.
    change (Byte.eqb x7b x66) with false. change (Byte.eqb x7b quote) with false.
    change (Byte.eqb x7b x5b) with false. change (Byte.eqb x7b x7b) with true. cbv iota.
    rewrite <- app_assoc. cbn [app].
    cbn [length] in HF. rewrite app_length in HF. cbn [length] in HF.
    rewrite pfields_show; [|  |lia|lia].
    + cbn [option_map fst snd]. rewrite fold_obj_set by exact Hs. reflexivity.
    + rewrite Forall_forall in *. intros kv Hkv. destruct (Hl kv Hkv) as (Hk & Hv). split; [exact Hk|].
      split; [exact Hv|]. apply H; assumption.
Qed.

(** The text of a value reads back as the value. *)
Theorem parse_show v : jwf v -> jdepth v <= 127 -> parse_json (show v) = Some v.
Proof.
  intros W Hd. unfold parse_json. rewrite <- (app_nil_r (show v)) at 2.
  rewrite (pvalue_show v W); [reflexivity|lia|lia|exact I].
Qed.

(** ** More text after a value *)
Lemma put_some t o u r : put t o = Some (u, r) -> exists u', o = Some (u', r) /\ u = t ++ u'.
Proof. destruct o as [(u', r')|]; cbn; [|discriminate]. intros E; injection E as <- <-. eauto. Qed.

Lemma str_body_ext_n n : forall s t r x, length s <= n ->
  str_body s = Some (t, r) -> str_body (s ++ x) = Some (t, r ++ x).
Proof.
  induction n as [|n IH]; intros s t r x Hn H.
  - destruct s; [discriminate|cbn in Hn; lia].
  - destruct s as [|b s]; [discriminate|]. cbn [length] in Hn. cbn [app str_body] in *.
    destruct (Byte.eqb b quote); [injection H as <- <-; reflexivity|].
    destruct (Byte.eqb b x5c).
    + destruct s as [|e s]; [discriminate|]. cbn [app length] in *.
      destruct (Byte.eqb e x75).
      * destruct s as [|h1 [|h2 [|h3 [|h4 s]]]]; try discriminate. cbn [app length] in *.
        destruct (hex4 h1 h2 h3 h4) as [k|]; [|discriminate].
        destruct ((56320 <=? k) && (k <=? 57343))%N; [discriminate|].
        destruct ((55296 <=? k) && (k <=? 56319))%N.
        -- destruct s as [|c1 [|c2 [|g1 [|g2 [|g3 [|g4 s]]]]]]; try discriminate. cbn [app length] in *.
           destruct (Byte.eqb c1 x5c && Byte.eqb c2 x75); [|discriminate].
           destruct (hex4 g1 g2 g3 g4) as [m|]; [|discriminate].
           destruct ((56320 <=? m) && (m <=? 57343))%N; [|discriminate].
           apply put_some in H as (u & H & ->). rewrite (IH _ _ _ x) with (2 := H); [reflexivity|lia].
        -- apply put_some in H as (u & H & ->). rewrite (IH _ _ _ x) with (2 := H); [reflexivity|lia].
      * destruct (simple_escape e); [|discriminate].
        apply put_some in H as (u & H & ->). rewrite (IH _ _ _ x) with (2 := H); [reflexivity|lia].
    + destruct (b2n b <? 32); [discriminate|].
      apply put_some in H as (u & H & ->). rewrite (IH _ _ _ x) with (2 := H); [reflexivity|lia].
Qed.

Lemma read_str_ext s t r x : read_str s = Some (t, r) -> read_str (s ++ x) = Some (t, r ++ x).
Proof.
  unfold read_str. intros H. destruct (str_body s) as [(u, r')|] eqn:E; [|discriminate].
  rewrite (str_body_ext_n _ _ _ _ x (le_n _) E). destruct (utf8_valid u); [|discriminate].
  injection H as <- <-. reflexivity.
Qed.

Lemma strip_ext p : forall s r x, strip p s = Some r -> strip p (s ++ x) = Some (r ++ x).
Proof.
  induction p as [|a p IH]; intros s r x H; cbn in *; [injection H as <-; reflexivity|].
  destruct s as [|b s]; [discriminate|]. cbn. destruct (Byte.eqb a b); [auto|discriminate].
Qed.

Lemma skip_ws_ext s b r x : skip_ws s = b :: r -> skip_ws (s ++ x) = b :: r ++ x.
Proof.
  induction s as [|c s IH]; cbn; [discriminate|]. destruct (is_ws c); [exact IH|].
  intros E; injection E as -> ->. reflexivity.
Qed.

Lemma read_number_kind s v r : read_number s = Some (v, r) -> is_number v = true.
Proof.
  unfold read_number. destruct (read_sign s) as (sg, s1).
  destruct (read_int s1) as [(i, s2)|]; [|discriminate].
  destruct (read_frac s2) as [(f, s3)|]; [|discriminate].
  destruct (read_exp s3) as [(e, s4)|]; [|discriminate].
  intros E; injection E as <- <-. destruct (_ && _); reflexivity.
Qed.

Lemma parse_ext F :
  (forall d s v r x F', pvalue F d s = Some (v, r) -> F <= F' -> (is_number v = true -> r = [] -> nstop x) ->
     pvalue F' d (s ++ x) = Some (v, r ++ x)) /\
  (forall d first s l r x F', pitems F d first s = Some (l, r) -> F <= F' ->
     pitems F' d first (s ++ x) = Some (l, r ++ x)) /\
  (forall d first s l r x F', pfields F d first s = Some (l, r) -> F <= F' ->
     pfields F' d first (s ++ x) = Some (l, r ++ x)).
Proof.
  induction F as [|F (IHv & IHi & IHf)]; [repeat split; discriminate|].
  split; [|split].
  - intros d s v r x F' H HF Hx. destruct F' as [|F']; [lia|]. apply le_S_n in HF. cbn [pvalue] in *.
    destruct (skip_ws s) as [|b t] eqn:E; [discriminate|]. rewrite (skip_ws_ext _ _ _ x E).
    destruct (Byte.eqb b x6e).
    { destruct (strip (lit "ull") t) eqn:E1; [|discriminate]. rewrite (strip_ext _ _ _ x E1).
      injection H as <- <-. reflexivity. }
    destruct (Byte.eqb b x74).
    { destruct (strip (lit "rue") t) eqn:E1; [|discriminate]. rewrite (strip_ext _ _ _ x E1).
      injection H as <- <-. reflexivity. }
    destruct (Byte.eqb b x66).
    { destruct (strip (lit "alse") t) eqn:E1; [|discriminate]. rewrite (strip_ext _ _ _ x E1).
      injection H as <- <-. reflexivity. }
    destruct (Byte.eqb b quote).
    { destruct (read_str t) as [(u, t')|] eqn:E1; [|discriminate]. rewrite (read_str_ext _ _ _ x E1).
      injection H as <- <-. reflexivity. }
    destruct (Byte.eqb b x5b).
    { destruct d as [|[|d]]; try discriminate.
      destruct (pitems F (S d) true t) as [(u, t')|] eqn:E1; [|discriminate].
      rewrite (IHi _ _ _ _ _ x F' E1 HF). injection H as <- <-. reflexivity. }
    destruct (Byte.eqb b x7b).
    { destruct d as [|[|d]]; try discriminate.
      destruct (pfields F (S d) true t) as [(u, t')|] eqn:E1; [|discriminate].
      rewrite (IHf _ _ _ _ _ x F' E1 HF). injection H as <- <-. reflexivity. }
    destruct (Byte.eqb b x2d || is_digit b); [|discriminate].
    rewrite app_comm_cons. apply read_number_ext; [exact H|]. apply Hx. eapply read_number_kind; exact H.
  - intros d first s l r x F' H HF. destruct F' as [|F']; [lia|]. apply le_S_n in HF. cbn [pitems] in *.
    destruct (skip_ws s) as [|b t] eqn:E; [discriminate|]. rewrite (skip_ws_ext _ _ _ x E).
    destruct (Byte.eqb b x5d); [injection H as <- <-; reflexivity|].
    destruct (first || Byte.eqb b x2c); [|discriminate].
    destruct (pvalue F d (if first then b :: t else t)) as [(v, t')|] eqn:E1; [|discriminate].
    destruct (pitems F d false t') as [(l', r')|] eqn:E2; [|discriminate].
    assert (T : t' <> []).
    { intros ->. destruct F; [discriminate|]. discriminate. }
    assert (R : pvalue F' d (if first then b :: t ++ x else t ++ x) = Some (v, t' ++ x)).
    { destruct first; [rewrite app_comm_cons|]; (apply IHv; [exact E1|exact HF|congruence]). }
    rewrite R. rewrite (IHi _ _ _ _ _ x F' E2 HF). injection H as <- <-. reflexivity.
  - intros d first s l r x F' H HF. destruct F' as [|F']; [lia|]. apply le_S_n in HF. cbn [pfields] in *.
    destruct (skip_ws s) as [|b t] eqn:E; [discriminate|]. rewrite (skip_ws_ext _ _ _ x E).
    destruct (Byte.eqb b x7d); [injection H as <- <-; reflexivity|].
    destruct (first || Byte.eqb b x2c); [|discriminate].
    destruct (skip_ws (if first then b :: t else t)) as [|q r1] eqn:E1; [discriminate|].
    assert (R1 : skip_ws (if first then b :: t ++ x else t ++ x) = q :: r1 ++ x).
    { destruct first; [rewrite app_comm_cons|]; apply skip_ws_ext; exact E1. }
    rewrite R1. destruct (Byte.eqb q quote); [|discriminate].
    destruct (read_str r1) as [(k, r2)|] eqn:E2; [|discriminate]. rewrite (read_str_ext _ _ _ x E2).
    destruct (skip_ws r2) as [|c r3] eqn:E3; [discriminate|]. rewrite (skip_ws_ext _ _ _ x E3).
    destruct (Byte.eqb c x3a); [|discriminate].
    destruct (pvalue F d r3) as [(v, t')|] eqn:E4; [|discriminate].
    destruct (pfields F d false t') as [(l', r')|] eqn:E5; [|discriminate].
    assert (T : t' <> []).
    { intros ->. destruct F; [discriminate|]. discriminate. }
    rewrite (IHv _ _ _ _ x F' E4 HF) by congruence.
    rewrite (IHf _ _ _ _ _ x F' E5 HF). injection H as <- <-. reflexivity.
Qed.

(** A proper prefix of an object's text is not the text of anything. *)
Theorem parse_prefix fs p x : jwf (JObj fs) -> jdepth (JObj fs) <= 127 ->
  show (JObj fs) = p ++ x -> x <> [] -> parse_json p = None.
Proof.
  intros W Hd E Hx. destruct (parse_json p) as [v|] eqn:P; [exfalso|reflexivity].
  unfold parse_json in P. destruct (pvalue (2 * length p + 2) 128 p) as [(v', r)|] eqn:V; [|discriminate].
  assert (Z : is_number v' = false).
  { rewrite show_obj in E. destruct p as [|b p]; [discriminate|]. injection E as <- _.
    replace (2 * length (x7b :: p) + 2) with (S (2 * length (x7b :: p) + 1)) in V by lia.
    cbn [pvalue skip_ws] in V. change (is_ws x7b) with false in V. cbv iota beta in V.
    change (Byte.eqb x7b x6e) with false in V. change (Byte.eqb x7b x74) with false in V.
    change (Byte.eqb x7b x66) with false in V. change (Byte.eqb x7b quote) with false in V.
    change (Byte.eqb x7b x5b) with false in V. change (Byte.eqb x7b x7b) with true in V. cbv iota in V.
    destruct (pfields _ 127 true p) as [(l, r')|]; [|discriminate]. injection V as <- _. reflexivity. }
  apply (proj1 (parse_ext _)) with (x := x) (F' := 2 * length (p ++ x) + 2) in V;
    [|rewrite app_length; lia|congruence].
  rewrite <- E in V. pose proof (pvalue_show _ W (2 * length (show (JObj fs)) + 2) 128 []) as S.
  rewrite app_nil_r, V in S.
  assert (A : r ++ x = []) by (cut (Some (v', r ++ x) = Some (JObj fs, @nil byte)); [congruence|apply S; [lia|lia|exact I]]).
  apply app_eq_nil in A as (_ & A). exact (Hx A).
Qed.

Example parse_example : parse_json (lit " {""a"" : [1, -2.5e3, ""x\u0041\ud83d\ude00\n""], ""a"":null} ")
  = Some (JObj [(lit "a", JNull)]) /\
  parse_json (lit "[1, -2.5e3, ""x\u0041\n"", 18446744073709551616]")
  = Some (JArr [JNum 1; JReal (lit "-2.5e3"); JStr (lit "xA" ++ [x0a]); JReal (lit "18446744073709551616")]) /\
  parse_json (lit "[01]") = None /\ parse_json (lit "[1,]") = None /\ parse_json (lit "{} x") = None.
Proof. repeat split; reflexivity. Qed.
