(** * Properties C95 and C96: the command line, and the files a run may change. *)
From Coq Require Import String Ascii Permutation.
From Verif Require Import Base BaseLemmas TokenSetModel TokenizerModel ProcessingModel BatchModel CacheModel OptimizeModel OptimizeProof3
  JsonModel MainModel CommandsModel PropOptimize PropCommands PropOptFiles PropIncreasing PropProcessCmd ArgsModel.
Local Open Scope list_scope.
Local Notation length := List.length.
Local Open Scope char_scope.

(** ** Specification *)
(** The words for the kinds of processing and of token sets. *)
Definition processing_word (p : processing) : string := match p with Raw => "raw" | CapsWords => "caps-words" end.
Definition type_word (t : token_type) : string :=
  match t with Bits1 => "bits1" | Bits2 => "bits2" | Bits4 => "bits4" | Bytes => "bytes" | BytesHuff => "bytes-huff" end.

(** Decimal numbers, possibly with a plus sign, below 2^64. *)
Inductive decimal : string -> N -> Prop :=
| dec_one d : (d < 10)%N -> decimal (String (ascii_of_N (48 + d)) "") d
| dec_more s n d : decimal s n -> (d < 10)%N -> decimal (s ++ String (ascii_of_N (48 + d)) "") (10 * n + d).
Definition number (s : string) (n : N) : Prop :=
  (n < 2 ^ 64)%N /\ (decimal s n \/ exists r, s = String "+" r /\ decimal r n).
Definition maybe_number (s : option string) (n : option N) : Prop :=
  match s, n with None, None => True | Some s, Some n => number s n | _, _ => False end.

(** The settings of a command: every option with its value, or [None] if it is
    left out. *)
Inductive says : command -> list (string * option string) -> Prop :=
| says_process data output : says (Process data output) [("data", Some data); ("output", Some output)]%string
| says_count data : says (CountChars data) [("data", Some data)]%string
| says_convert data processed input tdir :
    says (ConvertTokens data processed input tdir)
      [("data", Some data); ("processed-data", processed); ("input-tokens", Some input); ("tokens-dir", Some tdir)]%string
| says_optimize data processed tdir p t n ntext input min mintext :
    number ntext n -> maybe_number mintext min ->
    says (Optimize data processed tdir p t n input min)
      [("data", Some data); ("processed-data", processed); ("tokens-dir", Some tdir);
       ("processing", Some (processing_word p)); ("type", Some (type_word t)); ("ntokens", Some ntext);
       ("input-tokens", input); ("min-data-size", mintext)]%string.

Definition given (l : list (string * option string)) : list (string * string) :=
  flat_map (fun p => match snd p with Some v => [(fst p, v)] | None => [] end) l.

(** The name of the command and the letters of its options. *)
Definition command_word (c : command) : string :=
  match c with
  | Process _ _ => "process" | CountChars _ => "count-chars"
  | ConvertTokens _ _ _ _ => "convert-tokens" | Optimize _ _ _ _ _ _ _ _ => "optimize"
  end.
Definition letter (c : command) (name : string) : option ascii :=
  match name, c with
  | "data"%string, _ => Some "d"
  | "output"%string, Process _ _ => Some "o"
  | "input-tokens"%string, (ConvertTokens _ _ _ _ | Optimize _ _ _ _ _ _ _ _) => Some "i"
  | "tokens-dir"%string, (ConvertTokens _ _ _ _ | Optimize _ _ _ _ _ _ _ _) => Some "t"
  | "processing"%string, Optimize _ _ _ _ _ _ _ _ => Some "p"
  | "ntokens"%string, Optimize _ _ _ _ _ _ _ _ => Some "n"
  | _, _ => None
  end.

(** The ways to write an option with its value as arguments.  A value in an
    argument of its own must not look like an option. *)
Definition plain (v : string) : Prop := v = "-"%string \/ forall r, v <> String "-" r.
Inductive spelled (c : command) : string * string -> list string -> Prop :=
| sp_long n v : plain v -> spelled c (n, v) ["--" ++ n; v]%string
| sp_long_eq n v : spelled c (n, v) ["--" ++ n ++ "=" ++ v]%string
| sp_short n v x : letter c n = Some x -> plain v -> spelled c (n, v) [String "-" (String x ""); v]
| sp_short_eq n v x : letter c n = Some x -> spelled c (n, v) [String "-" (String x (String "=" v))]
| sp_short_glued n v x : letter c n = Some x -> v <> ""%string -> (forall r, v <> String "=" r) ->
    spelled c (n, v) [String "-" (String x v)].

(** [args] asks for [c]: the command, then its settings in any order, each in any
    spelling, and possibly "--" at the end. *)
Definition asks (args : list string) (c : command) : Prop :=
  exists settings order words tail, says c settings /\ Permutation (given settings) order /\
    Forall2 (spelled c) order words /\ (tail = [] \/ tail = ["--"%string]) /\
    args = command_word c :: concat words ++ tail.

(** ** Proofs *)
Lemma str_app_nil s : (s ++ "")%string = s.
Proof. induction s as [|c s IH]; cbn; [reflexivity|]. rewrite IH. reflexivity. Qed.
Lemma str_app_assoc a b c : ((a ++ b) ++ c)%string = (a ++ (b ++ c))%string.
Proof. induction a as [|x a IH]; cbn; [reflexivity|]. rewrite IH. reflexivity. Qed.

Fixpoint no_eq (s : string) : bool :=
  match s with EmptyString => true | String c r => negb (Ascii.eqb c "=") && no_eq r end.

Lemma split_eq_some n v : no_eq n = true -> split_eq (n ++ String "=" v) = (n, Some v).
Proof.
  induction n as [|c n IH]; intros H; [reflexivity|]. cbn in *. apply andb_true_iff in H as (H1 & H2).
  apply negb_true_iff in H1. rewrite H1, IH by exact H2. reflexivity.
Qed.
Lemma split_eq_none n : no_eq n = true -> split_eq n = (n, None).
Proof.
  induction n as [|c n IH]; intros H; [reflexivity|]. cbn in *. apply andb_true_iff in H as (H1 & H2).
  apply negb_true_iff in H1. rewrite H1, IH by exact H2. reflexivity.
Qed.
Lemma split_eq_inv s : forall n o, split_eq s = (n, o) ->
  match o with Some v => s = (n ++ String "=" v)%string | None => s = n end.
Proof.
  induction s as [|c s IH]; intros n o H; cbn in H; [injection H as <- <-; reflexivity|].
  destruct (Ascii.eqb_spec c "=") as [->|Hc].
  - injection H as <- <-. reflexivity.
  - destruct (split_eq s) as (n', o') eqn:E. injection H as <- <-. specialize (IH n' o' eq_refl).
    destruct o' as [v|]; cbn; f_equal; exact IH.
Qed.

(** Well-formed tables of options. *)
Definition names_ok (opts : option_names) : Prop :=
  NoDup (map fst opts) /\
  (forall n s, In (n, s) opts -> n <> ""%string /\ no_eq n = true) /\
  (forall n n' c, In (n, Some c) opts -> In (n', Some c) opts -> n = n') /\
  (forall n, ~ In (n, Some "-") opts).

Section Opts.
Variable opts : option_names.
Hypothesis Hok : names_ok opts.

Lemma find_long_in n s : In (n, s) opts -> find_long opts n = Some n.
Proof.
  intros H. unfold find_long. destruct (find _ opts) as [(n', s')|] eqn:E.
  - apply find_some in E as (_ & E). cbn in E. apply String.eqb_eq in E. cbn. congruence.
  - apply (find_none _ _ E) in H. cbn in H. rewrite String.eqb_refl in H. discriminate.
Qed.
Lemma find_long_inv n n' : find_long opts n = Some n' -> n' = n /\ exists s, In (n, s) opts.
Proof.
  unfold find_long. destruct (find _ opts) as [(m, s)|] eqn:E; [|discriminate]. cbn. intros [= <-].
  apply find_some in E as (H & E). cbn in E. apply String.eqb_eq in E. subst. eauto.
Qed.
Lemma find_short_in n c : In (n, Some c) opts -> find_short opts c = Some n.
Proof.
  intros H. unfold find_short. destruct (find _ opts) as [(n', [c'|])|] eqn:E.
  - apply find_some in E as (H' & E). cbn in E. apply Ascii.eqb_eq in E. subst c'. cbn. f_equal.
    destruct Hok as (_ & _ & U & _). eapply U; eassumption.
  - apply find_some in E as (_ & E). discriminate.
  - apply (find_none _ _ E) in H. cbn in H. rewrite Ascii.eqb_refl in H. discriminate.
Qed.
Lemma find_short_inv c n : find_short opts c = Some n -> In (n, Some c) opts.
Proof.
  unfold find_short. destruct (find _ opts) as [(m, [c'|])|] eqn:E; [| |discriminate].
  - cbn. intros [= <-]. apply find_some in E as (H & E). cbn in E. apply Ascii.eqb_eq in E. subst. exact H.
  - apply find_some in E as (_ & E). discriminate.
Qed.

(** An option written in some way. *)
Inductive written_as : string * string -> list string -> Prop :=
| wa_long n s v : In (n, s) opts -> option_like v = false -> written_as (n, v) ["--" ++ n; v]%string
| wa_long_eq n s v : In (n, s) opts -> written_as (n, v) ["--" ++ n ++ "=" ++ v]%string
| wa_short n v x : In (n, Some x) opts -> option_like v = false -> written_as (n, v) [String "-" (String x ""); v]
| wa_short_eq n v x : In (n, Some x) opts -> written_as (n, v) [String "-" (String x (String "=" v))]
| wa_short_glued n v x : In (n, Some x) opts -> v <> ""%string -> (forall r, v <> String "=" r) ->
    written_as (n, v) [String "-" (String x v)].

Lemma classify_long body : body <> ""%string ->
  classify opts (String "-" (String "-" body)) =
  let '(name, value) := split_eq body in
  match find_long opts name, value with
  | Some n, Some v => Attached n v | Some n, None => Expecting n | None, _ => Unexpected end.
Proof. destruct body; [congruence|]. reflexivity. Qed.

Lemma classify_short c rest : c <> "-" ->
  classify opts (String "-" (String c rest)) =
  match find_short opts c, rest with
  | Some n, EmptyString => Expecting n
  | Some n, String "=" v => Attached n v
  | Some n, v => Attached n v
  | None, _ => Unexpected
  end.
Proof.
  intros H. destruct c as [[] [] [] [] [] [] [] []]; try reflexivity. elim H; reflexivity.
Qed.

Lemma short_rest n rest : rest <> ""%string -> (forall r, rest <> String "=" r) ->
  match rest with EmptyString => Expecting n | String "=" v => Attached n v | v => Attached n v end = Attached n rest.
Proof.
  intros H1 H2. destruct rest as [|c r]; [congruence|].
  destruct c as [[] [] [] [] [] [] [] []]; try reflexivity. elim (H2 r); reflexivity.
Qed.

Lemma gather_word p w rest : written_as p w -> gather opts (w ++ rest) = option_map (cons p) (gather opts rest).
Proof.
  destruct Hok as (_ & Hn & _ & Hd).
  assert (Hc : forall n x, In (n, Some x) opts -> x <> "-") by (intros n x H ->; exact (Hd n H)).
  destruct 1 as [n s v Hi Hv|n s v Hi|n v x Hi Hv|n v x Hi|n v x Hi Hv1 Hv2]; cbn [app gather].
  - change ("--" ++ n)%string with (String "-" (String "-" n)).
    destruct (Hn n s Hi) as (N1 & N2). rewrite classify_long by exact N1.
    rewrite split_eq_none by exact N2. rewrite (find_long_in n s Hi). rewrite Hv. reflexivity.
  - change ("--" ++ n ++ "=" ++ v)%string with (String "-" (String "-" (n ++ String "=" v))).
    destruct (Hn n s Hi) as (N1 & N2). rewrite classify_long by (destruct n; discriminate).
    rewrite split_eq_some by exact N2. rewrite (find_long_in n s Hi). reflexivity.
  - rewrite classify_short by (eapply Hc; exact Hi). rewrite (find_short_in n x Hi), Hv. reflexivity.
  - rewrite classify_short by (eapply Hc; exact Hi). rewrite (find_short_in n x Hi). reflexivity.
  - rewrite classify_short by (eapply Hc; exact Hi). rewrite (find_short_in n x Hi).
    rewrite short_rest by assumption. reflexivity.
Qed.

Lemma gather_words l words tail : Forall2 written_as l words -> tail = [] \/ tail = ["--"%string] ->
  gather opts (concat words ++ tail) = Some l.
Proof.
  intros H Ht. induction H as [|p w l words Hw _ IH].
  - destruct Ht as [->| ->]; reflexivity.
  - cbn [concat]. rewrite <- app_assoc, (gather_word p w _ Hw), IH. reflexivity.
Qed.

(** One argument, read back. *)
Lemma classify_inv a : match classify opts a with
  | Escape => a = "--"%string
  | Attached n v => written_as (n, v) [a]
  | Expecting n => forall v, option_like v = false -> written_as (n, v) [a; v]
  | Unexpected => True
  end.
Proof.
  destruct a as [|c0 a]; [exact I|].
  destruct (ascii_dec c0 "-") as [->|H0].
  2:{ destruct c0 as [[] [] [] [] [] [] [] []]; try exact I. elim H0; reflexivity. }
  destruct a as [|c body]; [exact I|].
  destruct (ascii_dec c "-") as [->|Hc].
  - destruct body as [|b body]; [reflexivity|]. rewrite classify_long by discriminate.
    destruct (split_eq (String b body)) as (n, o) eqn:E. apply split_eq_inv in E.
    destruct (find_long opts n) as [n'|] eqn:F; [|destruct o; exact I].
    apply find_long_inv in F as (-> & s & Hi). destruct o as [v|].
    + rewrite E. exact (wa_long_eq n s v Hi).
    + rewrite E. intros v Hv. exact (wa_long n s v Hi Hv).
  - rewrite classify_short by exact Hc. destruct (find_short opts c) as [n|] eqn:F; [|destruct body; exact I].
    apply find_short_inv in F.
    assert (B : body = ""%string \/ (exists r, body = String "=" r) \/ (body <> ""%string /\ forall r, body <> String "=" r)).
    { destruct body as [|b r]; [auto|]. right. destruct (ascii_dec b "=") as [->|Hb]; [left; eauto|right; split; [discriminate|congruence]]. }
    destruct B as [->|[(r & ->)|(B1 & B2)]].
    + intros v Hv. apply wa_short; assumption.
    + apply wa_short_eq. exact F.
    + rewrite short_rest by assumption. apply wa_short_glued; assumption.
Qed.

Lemma gather_inv : forall k args l, length args <= k -> gather opts args = Some l ->
  exists words tail, Forall2 written_as l words /\ (tail = [] \/ tail = ["--"%string]) /\ args = concat words ++ tail.
Proof.
  induction k as [|k IH]; intros [|a r] l Hk H; cbn [length] in Hk; try lia.
  - injection H as <-. exists [], []. split; [constructor|]. split; [auto|reflexivity].
  - injection H as <-. exists [], []. split; [constructor|]. split; [auto|reflexivity].
  - cbn [gather] in H. pose proof (classify_inv a) as C. destruct (classify opts a) as [|n v|n|].
    + destruct r; [|discriminate]. injection H as <-. subst a. exists [], ["--"%string]. split; [constructor|]. split; [auto|reflexivity].
    + destruct (gather opts r) as [l'|] eqn:E; [|discriminate]. injection H as <-.
      destruct (IH r l' ltac:(lia) E) as (words & tail & F & T & ->).
      exists ([a] :: words), tail. split; [constructor; assumption|]. split; [exact T|reflexivity].
    + destruct r as [|v r]; [discriminate|]. destruct (option_like v) eqn:Ev; [discriminate|].
      destruct (gather opts r) as [l'|] eqn:E; [|discriminate]. injection H as <-.
      cbn [length] in Hk. destruct (IH r l' ltac:(lia) E) as (words & tail & F & T & ->).
      exists ([a; v] :: words), tail. split; [constructor; auto|]. split; [exact T|reflexivity].
    + discriminate.
Qed.
End Opts.

Lemma repeats_iff l : repeats l = false <-> NoDup l.
Proof.
  induction l as [|x l IH]; cbn; [split; [constructor|reflexivity]|]. split.
  - intros H. apply orb_false_iff in H as (H1 & H2). constructor; [|apply IH, H2].
    intros Hi. assert (X : existsb (String.eqb x) l = true); [|congruence].
    apply existsb_exists. exists x. split; [exact Hi|apply String.eqb_refl].
  - intros H. inversion H as [|? ? Hx Hl]; subst. apply orb_false_iff. split; [|apply IH, Hl].
    destruct (existsb (String.eqb x) l) eqn:E; [|reflexivity]. apply existsb_exists in E as (y & Hy & E).
    apply String.eqb_eq in E. subst. contradiction.
Qed.

(** Values looked up. *)
Lemma value_of_in l n v : NoDup (map fst l) -> In (n, v) l -> value_of l n = Some v.
Proof.
  intros Hn. induction l as [|(m, u) l IH]; intros H; [contradiction|]. cbn in Hn. inversion Hn as [|? ? Hm Hl]; subst.
  unfold value_of. cbn [find fst]. destruct H as [[= -> ->]|H].
  - rewrite String.eqb_refl. reflexivity.
  - destruct (String.eqb_spec m n) as [->|_]; [|exact (IH Hl H)].
    exfalso. apply Hm. apply in_map_iff. exists (n, v). auto.
Qed.
Lemma value_of_none l n : ~ In n (map fst l) -> value_of l n = None.
Proof.
  intros H. unfold value_of. destruct (find _ l) as [(m, u)|] eqn:E; [|reflexivity]. exfalso.
  apply find_some in E as (Hi & E). cbn in E. apply String.eqb_eq in E. subst. apply H. apply in_map_iff. exists (n, u). auto.
Qed.
Lemma value_of_some l n v : value_of l n = Some v -> In (n, v) l.
Proof.
  unfold value_of. destruct (find _ l) as [(m, u)|] eqn:E; [|discriminate]. cbn. intros [= <-].
  apply find_some in E as (Hi & E). cbn in E. apply String.eqb_eq in E. subst. exact Hi.
Qed.

Lemma given_in settings n v : In (n, v) (given settings) <-> In (n, Some v) settings.
Proof.
  unfold given. rewrite in_flat_map. split.
  - intros ((m, [u|]) & Hi & H); cbn in H; [|contradiction]. destruct H as [[= -> ->]|[]]. exact Hi.
  - intros H. exists (n, Some v). split; [exact H|left; reflexivity].
Qed.
Lemma given_names settings : NoDup (map fst settings) -> NoDup (map fst (given settings)).
Proof.
  induction settings as [|(m, [u|]) l IH]; intros H; [constructor| |]; cbn in H; inversion H as [|? ? Hm Hl]; subst.
  - cbn. constructor; [|apply IH, Hl]. intros Hi. apply Hm. apply in_map_iff in Hi as ((n', v') & <- & Hi).
    apply given_in in Hi. apply in_map_iff. exists (n', Some v'). auto.
  - cbn. apply IH, Hl.
Qed.

Lemma value_settings settings l n o : NoDup (map fst settings) -> Permutation (given settings) l ->
  In (n, o) settings -> value_of l n = o.
Proof.
  intros Hn Hp Hi.
  assert (Hnl : NoDup (map fst l)).
  { eapply Permutation_NoDup; [apply Permutation_map, Hp|]. apply given_names, Hn. }
  destruct o as [v|].
  - apply value_of_in; [exact Hnl|]. eapply Permutation_in; [exact Hp|]. apply given_in. exact Hi.
  - apply value_of_none. intros H. apply in_map_iff in H as ((m, v) & E & H). cbn in E. subst m.
    apply (Permutation_in _ (Permutation_sym Hp)) in H. apply given_in in H.
    clear - Hn Hi H. induction settings as [|(m, u) s IH]; [contradiction|]. cbn in Hn. inversion Hn as [|? ? Hm Hs]; subst.
    destruct Hi as [[= -> ->]|Hi], H as [[= ]|H]; try congruence.
    + apply Hm. apply in_map_iff. exists (n, Some v). auto.
    + subst. apply Hm. apply in_map_iff. exists (n, None). auto.
    + apply IH; assumption.
Qed.

(** The settings of given arguments. *)
Lemma settings_of_values (opts : option_names) l : NoDup (map fst opts) -> NoDup (map fst l) ->
  (forall n v, In (n, v) l -> In n (map fst opts)) ->
  Permutation (given (map (fun o => (fst o, value_of l (fst o))) opts)) l.
Proof.
  intros H1 H2 H3. apply NoDup_Permutation.
  - apply (NoDup_map_inv fst). apply given_names. rewrite map_map. cbn. exact H1.
  - apply (NoDup_map_inv fst). exact H2.
  - intros (n, v). rewrite given_in. split.
    + intros Hi. apply in_map_iff in Hi as ((m, s) & E & _). cbn in E. injection E as -> E. apply value_of_some, E.
    + intros Hi. apply in_map_iff. pose proof (H3 n v Hi) as Ho. apply in_map_iff in Ho as ((m, s) & E & Ho).
      cbn in E. subst m. exists (n, s). cbn. rewrite (value_of_in l n v H2 Hi). auto.
Qed.

(** *** Numbers *)
Lemma digit_of_spec c d : digit_of c = Some d <-> (d < 10)%N /\ c = ascii_of_N (48 + d).
Proof.
  unfold digit_of. split.
  - destruct ((48 <=? N_of_ascii c)%N && (N_of_ascii c <=? 57)%N) eqn:E; [|discriminate]. intros [= <-].
    apply andb_true_iff in E as (E1 & E2). apply N.leb_le in E1, E2. split; [lia|].
    replace (48 + (N_of_ascii c - 48))%N with (N_of_ascii c) by lia. symmetry. apply ascii_N_embedding.
  - intros (Hd & ->). rewrite N_ascii_embedding by lia.
    replace ((48 <=? 48 + d)%N && (48 + d <=? 57)%N) with true.
    + f_equal. lia.
    + symmetry. apply andb_true_iff. split; apply N.leb_le; lia.
Qed.

Lemma digits_from_app a b : forall acc, digits_from acc (a ++ b) =
  match digits_from acc a with Some n => digits_from n b | None => None end.
Proof.
  induction a as [|c a IH]; intros acc; [reflexivity|]. cbn. destruct (digit_of c) as [d|]; [apply IH|reflexivity].
Qed.

Lemma decimal_digits s n : decimal s n -> digits_from 0 s = Some n /\ exists c r, s = String c r /\ c <> "+" /\ c <> "-".
Proof.
  induction 1 as [d Hd|s n d Hs (IH & c & r & E & Hc & Hc') Hd].
  - cbn [digits_from]. rewrite (proj2 (digit_of_spec _ d)) by auto. split; [cbn; f_equal; lia|].
    eexists _, _. split; [reflexivity|].
    split; intros X; apply (f_equal N_of_ascii) in X; rewrite N_ascii_embedding in X by lia.
    + change (N_of_ascii "+") with 43%N in X. lia.
    + change (N_of_ascii "-") with 45%N in X. lia.
  - rewrite digits_from_app, IH. cbn [digits_from]. rewrite (proj2 (digit_of_spec _ d)) by auto.
    split; [f_equal; lia|]. subst s. exists c. eexists. split; [reflexivity|]. split; assumption.
Qed.

Lemma digits_decimal_more s : forall p n m, decimal p n -> digits_from n s = Some m -> decimal (p ++ s) m.
Proof.
  induction s as [|c s IH]; intros p n m Hp H; cbn in H.
  - injection H as <-. rewrite str_app_nil. exact Hp.
  - destruct (digit_of c) as [d|] eqn:Ed; [|discriminate]. apply digit_of_spec in Ed as (Hd & ->).
    replace (p ++ String (ascii_of_N (48 + d)) s)%string with ((p ++ String (ascii_of_N (48 + d)) "") ++ s)%string
      by (rewrite str_app_assoc; reflexivity).
    eapply IH; [|exact H]. replace (n * 10 + d)%N with (10 * n + d)%N by lia. apply dec_more; assumption.
Qed.
Lemma digits_decimal s n : s <> ""%string -> digits_from 0 s = Some n -> decimal s n.
Proof.
  destruct s as [|c s]; [congruence|]. intros _ H. cbn in H.
  destruct (digit_of c) as [d|] eqn:Ed; [|discriminate]. apply digit_of_spec in Ed as (Hd & ->).
  apply (digits_decimal_more s (String (ascii_of_N (48 + d)) "") d); [apply dec_one; exact Hd|]. replace (0 * 10 + d)%N with d in H by lia. exact H.
Qed.

Lemma plus_cases s : (exists r, s = String "+" r) \/
  (match s with String "+" r => r | _ => s end = s /\ forall r, s <> String "+" r).
Proof.
  destruct s as [|c s]; [right; split; [reflexivity|discriminate]|].
  destruct (ascii_dec c "+") as [->|Hc]; [left; eauto|]. right.
  split; [destruct c as [[] [] [] [] [] [] [] []]; try reflexivity; elim Hc; reflexivity|congruence].
Qed.

Lemma usize_arg_spec s n : usize_arg s = Some n <-> number s n.
Proof.
  assert (K : forall body, (match body with EmptyString => None | _ => match digits_from 0 body with
      Some n => if (n <? 18446744073709551616)%N then Some n else None | None => None end end = Some n) <-> (n < 2 ^ 64)%N /\ decimal body n).
  { intros body. split.
    - intros H. destruct body as [|c r]; [discriminate|]. destruct (digits_from 0 (String c r)) as [m|] eqn:E; [|discriminate].
      destruct (N.ltb_spec m 18446744073709551616) as [L|_]; [|discriminate]. injection H as <-. split; [exact L|].
      apply digits_decimal; [discriminate|exact E].
    - intros (L & H). destruct (decimal_digits _ _ H) as (E & c & r & -> & _). rewrite E.
      destruct (N.ltb_spec n 18446744073709551616) as [_|L']; [reflexivity|]. change (2 ^ 64)%N with 18446744073709551616%N in L. lia. }
  unfold usize_arg, number. destruct (plus_cases s) as [(r & ->)|(-> & Hs)].
  - rewrite K. split.
    + intros (L & H). split; [exact L|]. right. eauto.
    + intros (L & [H|(r' & [= <-] & H)]); [|auto]. exfalso. destruct (decimal_digits _ _ H) as (_ & c & r' & [= <- _] & Hc & _). congruence.
  - rewrite K. split.
    + intros (L & H). auto.
    + intros (L & [H|(r' & -> & H)]); [auto|]. exfalso. eapply Hs; reflexivity.
Qed.

Lemma number_plain s n : number s n -> plain s.
Proof.
  intros (_ & [H|(r & -> & _)]); right; [|discriminate].
  destruct (decimal_digits _ _ H) as (_ & c & r & -> & _ & Hc). congruence.
Qed.

Lemma processing_arg_spec s p : processing_arg s = Some p <-> s = processing_word p.
Proof.
  unfold processing_arg. destruct (String.eqb_spec s "raw") as [->|H1]; [destruct p; split; cbn; congruence|].
  destruct (String.eqb_spec s "caps-words") as [->|H2]; destruct p; split; cbn; congruence.
Qed.
Lemma type_arg_spec s t : type_arg s = Some t <-> s = type_word t.
Proof.
  unfold type_arg. destruct (String.eqb_spec s "bits1") as [->|H1]; [destruct t; split; cbn; congruence|].
  destruct (String.eqb_spec s "bits2") as [->|H2]; [destruct t; split; cbn; congruence|].
  destruct (String.eqb_spec s "bits4") as [->|H3]; [destruct t; split; cbn; congruence|].
  destruct (String.eqb_spec s "bytes") as [->|H4]; [destruct t; split; cbn; congruence|].
  destruct (String.eqb_spec s "bytes-huff") as [->|H5]; destruct t; split; cbn; congruence.
Qed.

(** *** The tables *)
Definition options_of (c : command) : option_names :=
  match c with
  | Process _ _ => process_options | CountChars _ => count_options
  | ConvertTokens _ _ _ _ => convert_options | Optimize _ _ _ _ _ _ _ _ => optimize_options
  end.

Ltac all_in H := repeat (destruct H as [H|H]; [try (injection H as <-); try (injection H as <- <-)|]); try contradiction.

Lemma options_ok c : names_ok (options_of c).
Proof.
  split; [|split; [|split]].
  - destruct c; cbn; repeat constructor; cbn; intuition discriminate.
  - intros n s H. destruct c; cbn in H;
      repeat (destruct H as [[= <- <-]|H]; [split; [discriminate|reflexivity]|]); contradiction.
  - intros n n' x H H'. destruct c; cbn in H, H';
      repeat (destruct H as [[= <- <-]|H]; [repeat (destruct H' as [[= <-]|H']; [reflexivity|]); try contradiction|]);
      repeat (destruct H as [[=]|H]); try contradiction;
      repeat match goal with
      | X : _ \/ _ |- _ => destruct X as [X|X]
      | X : False |- _ => contradiction
      | X : (_, _) = (_, _) |- _ => injection X; clear X; intros; subst
      end; try discriminate; try reflexivity.
  - intros n H. destruct c; cbn in H; intuition discriminate.
Qed.

Lemma option_like_plain v : option_like v = false <-> plain v.
Proof.
  unfold plain. destruct v as [|c [|d r]].
  - split; [intros _; right; discriminate|reflexivity].
  - split; [|destruct c as [[] [] [] [] [] [] [] []]; reflexivity].
    intros _. destruct (ascii_dec c "-") as [->|H]; [auto|right; congruence].
  - destruct (ascii_dec c "-") as [->|H].
    + split; [discriminate|]. intros [X|X]; [discriminate|]. elim (X (String d r)). reflexivity.
    + split; [right; congruence|]. destruct c as [[] [] [] [] [] [] [] []]; try reflexivity. elim H; reflexivity.
Qed.

Lemma letter_in c n s : In (n, s) (options_of c) -> letter c n = s.
Proof.
  intros H. destruct c; cbn in H; repeat (destruct H as [[= <- <-]|H]; [reflexivity|]); contradiction.
Qed.
Lemma says_names c settings : says c settings -> map fst settings = map fst (options_of c).
Proof. destruct 1; reflexivity. Qed.

Lemma spelled_written c p w : In (fst p) (map fst (options_of c)) -> (spelled c p w <-> written_as (options_of c) p w).
Proof.
  intros Hi. apply in_map_iff in Hi as ((m, s) & E & Hi). cbn in E. subst m. pose proof (letter_in _ _ _ Hi) as L. split.
  - destruct 1; cbn [fst] in *.
    + eapply wa_long; [exact Hi|apply option_like_plain; assumption].
    + eapply wa_long_eq; exact Hi.
    + apply wa_short; [|apply option_like_plain; assumption]. rewrite H in L. rewrite L. exact Hi.
    + apply wa_short_eq. rewrite H in L. rewrite L. exact Hi.
    + apply wa_short_glued; auto. rewrite H in L. rewrite L. exact Hi.
  - destruct 1; cbn [fst] in *.
    + apply sp_long. apply option_like_plain; assumption.
    + apply sp_long_eq.
    + apply sp_short; [apply letter_in; assumption|apply option_like_plain; assumption].
    + apply sp_short_eq. apply letter_in; assumption.
    + apply sp_short_glued; auto. apply letter_in; assumption.
Qed.

Lemma written_name opts p w : written_as opts p w -> In (fst p) (map fst opts).
Proof. destruct 1; cbn [fst]; apply in_map_iff; eexists (_, _); (split; [|eassumption]); reflexivity. Qed.

Lemma with_options_iff opts args f c : names_ok opts ->
  with_options opts args f = Some c <->
  exists l words tail, Forall2 (written_as opts) l words /\ (tail = [] \/ tail = ["--"%string]) /\ args = concat words ++ tail /\
    NoDup (map fst l) /\ f (value_of l) = Some c.
Proof.
  intros Hok. unfold with_options, need. split.
  - destruct (gather opts args) as [l|] eqn:E; [|discriminate]. destruct (repeats (map fst l)) eqn:R; [discriminate|].
    intros H. destruct (gather_inv opts _ args l (le_n _) E) as (words & tail & F & T & A).
    exists l, words, tail. do 3 (split; [assumption|]). split; [apply repeats_iff, R|exact H].
  - intros (l & words & tail & F & T & -> & N & H). rewrite (gather_words opts Hok l words tail F T).
    apply repeats_iff in N. rewrite N. exact H.
Qed.

(** The command made from the values of the options. *)
Definition made (c : command) (get : string -> option string) : Prop :=
  says c (map (fun o => (fst o, get (fst o))) (options_of c)).

Lemma parse_args_iff args c : parse_args args = Some c <->
  exists l words tail, Forall2 (written_as (options_of c)) l words /\ (tail = [] \/ tail = ["--"%string]) /\
    args = command_word c :: concat words ++ tail /\ NoDup (map fst l) /\ made c (value_of l).
Proof.
  destruct args as [|sub r]; [split; [discriminate|intros (? & ? & ? & _ & _ & E & _); discriminate]|].
  assert (G : forall k f, (forall get, f get = Some c <-> made c get) ->
    options_of c = k -> names_ok k -> sub = command_word c ->
    (with_options k r f = Some c <-> exists l words tail, Forall2 (written_as (options_of c)) l words /\ (tail = [] \/ tail = ["--"%string]) /\
     sub :: r = command_word c :: concat words ++ tail /\ NoDup (map fst l) /\ made c (value_of l))).
  { intros k f Hf <- Hk ->. rewrite with_options_iff by exact Hk.
    split; intros (l & words & tail & F & T & A & N & M); exists l, words, tail;
      (do 2 (split; [assumption|])); (split; [congruence|]); (split; [assumption|]); apply Hf; exact M. }
  assert (W : forall k f, (forall get c', f get = Some c' -> command_word c' = sub) ->
    with_options k r f = Some c -> sub = command_word c).
  { intros k f Hf. unfold with_options, need. destruct (gather k r); [|discriminate]. destruct (repeats _); [discriminate|].
    intros H. symmetry. eapply Hf, H. }
  cbn [parse_args].
  destruct (String.eqb_spec sub "process") as [->|N1].
  { destruct (String.eqb_spec "process" (command_word c)) as [E|E].
    - apply G; [|destruct c; try discriminate E; reflexivity|exact (options_ok (Process "" ""))|exact E].
      destruct c; try discriminate E. intros get. unfold made. cbn [options_of process_options map fst]. unfold need. split.
      + destruct (get "data"%string); [|discriminate]. destruct (get "output"%string); [|discriminate]. intros [= <- <-]. constructor.
      + intros H. inversion H as [d o E1| | |]; subst. reflexivity.
    - split; intros H; [|destruct H as (l & words & tail & _ & _ & H & _); elim E; congruence].
      elim E. eapply W; [|exact H]. intros get c'. unfold need. destruct (get _); [|discriminate]. destruct (get _); [|discriminate]. intros [= <-]. reflexivity. }
  destruct (String.eqb_spec sub "count-chars") as [->|N2].
  { destruct (String.eqb_spec "count-chars" (command_word c)) as [E|E].
    - apply G; [|destruct c; try discriminate E; reflexivity|exact (options_ok (CountChars ""))|exact E].
      destruct c; try discriminate E. intros get. unfold made. cbn [options_of count_options map fst]. unfold need. split.
      + destruct (get "data"%string); [|discriminate]. intros [= <-]. constructor.
      + intros H. inversion H; subst. reflexivity.
    - split; intros H; [|destruct H as (l & words & tail & _ & _ & H & _); elim E; congruence].
      elim E. eapply W; [|exact H]. intros get c'. unfold need. destruct (get _); [|discriminate]. intros [= <-]. reflexivity. }
  destruct (String.eqb_spec sub "convert-tokens") as [->|N3].
  { destruct (String.eqb_spec "convert-tokens" (command_word c)) as [E|E].
    - apply G; [|destruct c; try discriminate E; reflexivity|exact (options_ok (ConvertTokens "" None "" ""))|exact E].
      destruct c; try discriminate E. intros get. unfold made. cbn [options_of convert_options map fst]. unfold need. split.
      + destruct (get "data"%string); [|discriminate]. destruct (get "input-tokens"%string); [|discriminate].
        destruct (get "tokens-dir"%string); [|discriminate]. intros [= <- <- <- <-]. constructor.
      + intros H. inversion H; subst. reflexivity.
    - split; intros H; [|destruct H as (l & words & tail & _ & _ & H & _); elim E; congruence].
      elim E. eapply W; [|exact H]. intros get c'. unfold need. do 3 (destruct (get _); [|discriminate]). intros [= <-]. reflexivity. }
  destruct (String.eqb_spec sub "optimize") as [->|N4].
  { destruct (String.eqb_spec "optimize" (command_word c)) as [E|E].
    - apply G; [|destruct c; try discriminate E; reflexivity|exact (options_ok (Optimize "" None "" Raw Bytes 0 None None))|exact E].
      destruct c; try discriminate E. intros get. unfold made. cbn [options_of optimize_options map fst]. unfold need. split.
      + destruct (get "data"%string); [|discriminate]. destruct (get "tokens-dir"%string); [|discriminate].
        destruct (get "processing"%string) as [ps|]; [|discriminate]. destruct (processing_arg ps) as [p'|] eqn:Ep; [|discriminate].
        destruct (get "type"%string) as [tys|]; [|discriminate]. destruct (type_arg tys) as [t'|] eqn:Et; [|discriminate].
        destruct (get "ntokens"%string) as [ns|]; [|discriminate]. destruct (usize_arg ns) as [n'|] eqn:En; [|discriminate].
        apply processing_arg_spec in Ep. apply type_arg_spec in Et. apply usize_arg_spec in En. subst ps tys.
        unfold maybe. destruct (get "min-data-size"%string) as [ms|].
        * destruct (usize_arg ms) as [m'|] eqn:Em; [|discriminate]. apply usize_arg_spec in Em.
          intros [= <- <- <- <- <- <- <- <-]. constructor; assumption.
        * intros [= <- <- <- <- <- <- <- <-]. constructor; [assumption|exact I].
      + intros H. inversion H as [| | |? ? ? ? ? ? nt ? ? mt Hn Hm E1 E2]; subst.
        rewrite (proj2 (processing_arg_spec _ _) eq_refl), (proj2 (type_arg_spec _ _) eq_refl), (proj2 (usize_arg_spec _ _) Hn).
        unfold maybe. destruct (get "min-data-size"%string) as [ms|]; destruct min_data_size as [mv|]; cbn in Hm; try contradiction.
        * rewrite (proj2 (usize_arg_spec _ _) Hm). reflexivity.
        * reflexivity.
    - split; intros H; [|destruct H as (l & words & tail & _ & _ & H & _); elim E; congruence].
      elim E. eapply W; [|exact H]. intros get c'. unfold need, maybe. do 2 (destruct (get _); [|discriminate]).
      destruct (get _) as [ps|]; [|discriminate]. destruct (processing_arg ps); [|discriminate].
      destruct (get _) as [tys|]; [|discriminate]. destruct (type_arg tys); [|discriminate].
      destruct (get _) as [ns|]; [|discriminate]. destruct (usize_arg ns); [|discriminate].
      destruct (get _) as [ms|]; [destruct (usize_arg ms); [|discriminate]|]; intros [= <-]; reflexivity. }
  split; [discriminate|]. intros (l & words & tail & _ & _ & H & _). exfalso. injection H as H _.
  destruct c; cbn in H; congruence.
Qed.

(** ** C95 *)
(** The arguments that are accepted for a command are exactly those that name it and
    give each of its settings once, in any order and spelling. *)
Theorem C95_command_line : forall args c, parse_args args = Some c <-> asks args c.
Proof.
  intros args c. rewrite parse_args_iff. destruct (options_ok c) as (Nd & _). split.
  - intros (l & words & tail & F & T & -> & N & M).
    assert (Hl : forall p, In p l -> In (fst p) (map fst (options_of c))).
    { intros p Hi. destruct (Forall2_in_l _ _ _ _ F Hi) as (w & _ & W). apply (written_name _ _ _ W). }
    exists (map (fun o => (fst o, value_of l (fst o))) (options_of c)), l, words, tail.
    split; [exact M|]. split; [apply settings_of_values; [exact Nd|exact N|intros n v H; apply (Hl _ H)]|].
    split; [|split; [exact T|reflexivity]].
    clear - F. induction F as [|p w l words W _ IH]; constructor; [|exact IH].
    apply spelled_written; [apply (written_name _ _ _ W)|exact W].
  - intros (settings & order & words & tail & Hs & Hp & F & T & ->). exists order, words, tail.
    pose proof (says_names c settings Hs) as En.
    assert (Ns : NoDup (map fst settings)) by (rewrite En; exact Nd).
    assert (Hl : forall p, In p order -> In (fst p) (map fst (options_of c))).
    { intros (n, v) Hi. apply (Permutation_in _ (Permutation_sym Hp)) in Hi. apply given_in in Hi. rewrite <- En.
      apply in_map_iff. exists (n, Some v). auto. }
    split; [|split; [exact T|]; split; [reflexivity|]; split].
    + clear - F Hl. induction F as [|p w l words W _ IH]; constructor.
      * apply spelled_written; [apply Hl; left; reflexivity|exact W].
      * apply IH. intros q Hq. apply Hl. right; exact Hq.
    + eapply Permutation_NoDup; [apply Permutation_map, Hp|]. apply given_names, Ns.
    + unfold made. replace (map (fun o => (fst o, value_of order (fst o))) (options_of c)) with settings; [exact Hs|].
      transitivity (map (fun n => (n, value_of order n)) (map fst (options_of c))); [|rewrite map_map; reflexivity].
      rewrite <- En, map_map. rewrite <- (map_id settings) at 1. apply map_ext_in. intros (n, o) Hi. cbn.
      rewrite (value_settings settings order n o Ns Hp Hi). reflexivity.
Qed.

(** So no arguments ask for two commands, and the order of the settings does not matter. *)
Theorem C95_one_meaning : forall args c c', asks args c -> asks args c' -> c = c'.
Proof. intros args c c' H H'. apply C95_command_line in H, H'. congruence. Qed.

(** The call shown in the README. *)
Theorem C95_readme_call : forall data tdir ntext n, plain data -> plain tdir -> number ntext n ->
  parse_args (["optimize"; "-d"; data; "-t"; tdir; "--type=bits4"; "-p"; "caps-words"; "-n"; ntext]%string) =
    Some (Optimize data None tdir CapsWords Bits4 n None None) /\
  forall output, plain output ->
    parse_args (["process"; "-d"; data; "-o"; output]%string) = Some (Process data output).
Proof.
  intros data tdir ntext n Hd Ht Hn. pose proof (number_plain _ _ Hn) as Hp. split; [|intros output Ho]; apply C95_command_line.
  - eexists _, [("data", data); ("tokens-dir", tdir); ("type", "bits4"); ("processing", "caps-words"); ("ntokens", ntext)]%string,
      [["-d"; data]; ["-t"; tdir]; ["--type=bits4"]; ["-p"; "caps-words"]; ["-n"; ntext]]%string, [].
    split; [apply (says_optimize data None tdir CapsWords Bits4 n ntext None None None Hn I)|]. split.
    + cbn. do 2 apply perm_skip. apply perm_swap.
    + split; [|split; [auto|reflexivity]].
      constructor; [apply sp_short; [reflexivity|exact Hd]|].
      constructor; [apply sp_short; [reflexivity|exact Ht]|].
      constructor; [apply (sp_long_eq _ "type"%string "bits4"%string)|].
      constructor; [apply sp_short; [reflexivity|right; discriminate]|].
      constructor; [apply sp_short; [reflexivity|exact Hp]|constructor].
  - eexists _, [("data", data); ("output", output)]%string, [["-d"; data]; ["-o"; output]]%string, [].
    split; [apply says_process|]. split; [cbn; reflexivity|]. split; [|split; [auto|reflexivity]].
    constructor; [apply sp_short; [reflexivity|exact Hd]|].
    constructor; [apply sp_short; [reflexivity|exact Ho]|constructor].
Qed.

(** The words for processing and type in the names of files are not those of the
    command line: the command line refuses "capswords" and "byteshuff". *)
Theorem C95_file_words_refused : forall p t,
  (processing_arg (processing_name p) = Some p <-> p = Raw) /\ (type_arg (type_name t) = Some t <-> t <> BytesHuff) /\
  processing_arg (processing_name CapsWords) = None /\ type_arg (type_name BytesHuff) = None.
Proof. intros p t. split; [destruct p; split; try reflexivity; discriminate|]. split; [destruct t; split; try reflexivity; try discriminate; congruence|]. split; reflexivity. Qed.

(** ** C96 *)
Lemma in_dir_in d ws path text : In (path, text) (in_dir d ws) -> exists name, path = join d name /\ In (name, text) ws.
Proof. unfold in_dir. intros H. apply in_map_iff in H as ((n, tx) & E & H). cbn in E. injection E as <- <-. eauto. Qed.

(** Names written by a search are names of token sets. *)
Lemma mmap_names l ws name text : mmap (fun ts => text <- set_text ts ;; Ret (file_name ts, text)) l = Ret ws ->
  In (name, text) ws -> exists ts, In ts l /\ name = file_name ts.
Proof.
  revert ws. induction l as [|ts l IH]; intros ws E Hi; cbn [mmap] in E; [apply ret_inj in E; subst; contradiction|].
  destruct (set_text ts) as [tx| |]; cbn [bind] in E; try discriminate.
  destruct (mmap _ l) as [r| |] eqn:Er; cbn [bind] in E; try discriminate. apply ret_inj in E. subst ws.
  destruct Hi as [[= <- _]|Hi]; [exists ts; split; [left; reflexivity|reflexivity]|].
  destruct (IH r eq_refl Hi) as (ts' & H1 & H2). exists ts'. split; [right; exact H1|exact H2].
Qed.
Lemma written_names ratio m ws name text : written ratio m = Ret ws -> In (name, text) ws -> exists ts,
  name = file_name ts /\ (In ts (m_saved m) \/ exists s, returned m s /\ ts = st_token_set s).
Proof.
  unfold written. intros E Hi. destruct (mmap _ (m_saved m)) as [saved| |] eqn:Es; cbn [bind] in E; try discriminate.
  assert (K : In (name, text) saved -> exists ts, name = file_name ts /\ (In ts (m_saved m) \/ exists s, returned m s /\ ts = st_token_set s)).
  { intros H. destruct (mmap_names _ _ _ _ Es H) as (ts & H1 & H2). eauto. }
  destruct (m_prog m) as [[s| |]|r k|ts k] eqn:Em; try (apply ret_inj in E; subst ws; exact (K Hi)).
  destruct (stats_text ratio s) as [tx| |]; cbn [bind] in E; try discriminate. apply ret_inj in E. subst ws.
  apply in_app_iff in Hi as [Hi|[[= <- _]|[]]]; [exact (K Hi)|]. exists (st_token_set s). split; [reflexivity|]. right. exists s. auto.
Qed.
Lemma increasing_names ratio result saved ws name text : increasing_written ratio result saved = Ret ws -> In (name, text) ws -> exists ts,
  name = file_name ts /\ (In ts saved \/ exists s, result = Some s /\ ts = st_token_set s).
Proof.
  unfold increasing_written. intros E Hi. destruct (mmap _ saved) as [sv| |] eqn:Es; cbn [bind] in E; try discriminate.
  assert (K : In (name, text) sv -> exists ts, name = file_name ts /\ (In ts saved \/ exists s, result = Some s /\ ts = st_token_set s)).
  { intros H. destruct (mmap_names _ _ _ _ Es H) as (ts & H1 & H2). eauto. }
  destruct result as [s|]; [|apply ret_inj in E; subst ws; exact (K Hi)].
  destruct (stats_text ratio s) as [tx| |]; cbn [bind] in E; try discriminate. apply ret_inj in E. subst ws.
  apply in_app_iff in Hi as [Hi|[[= <- _]|[]]]; [exact (K Hi)|]. exists (st_token_set s). split; [reflexivity|]. right. exists s. auto.
Qed.

(** Whatever the arguments and the files: at no moment a file disappears, and the only
    files that may differ are the output of process, the file of the set that is converted,
    and in the directory of an optimization files with names of token sets.  Refused
    arguments and count-chars change nothing. *)
Theorem C96_files_touched : forall fs args fs' path, program fs args fs' -> fs' path <> fs path ->
  fs' path <> None /\
  match parse_args args with
  | Some (Process data output) => path = output
  | Some (ConvertTokens data processed input tdir) =>
      exists text ts, fs input = Some text /\ read_token_set text = Ret ts /\ path = join tdir (file_name ts)
  | Some (Optimize data processed tdir p t n input min) => exists ts, path = join tdir (file_name ts)
  | Some (CountChars data) => False
  | None => False
  end.
Proof.
  intros fs args fs' path H Hd.
  destruct H as [|U script data output E|U script threads ratio reads data pd input tdir raw processed tokens name text fs' E Hr Hi Hp Hc Hw
    |U script threads ratio reads order clock rounds data pd tdir p t n input raw processed itext content m ws fs' E Hr Hp Hi Hm He Ho Hws Hw
    |U script threads ratio reads order clock near below rounds data pd tdir p t n input min raw processed itext content result saved ws fs' E Hr Hp Hi Hm He Ho Hws Hw].
  - congruence.
  - rewrite E. destruct (process_command U script fs data output) as (d', ok) eqn:Ep. cbn [fst] in *.
    pose proof (C69_other_files_untouched _ _ _ _ _ _ _ Ep) as (K & _).
    destruct (String.eqb_spec path output) as [->|Hn]; [|elim Hd; apply K, Hn]. split; [|reflexivity].
    unfold process_command in Ep. destruct (fs data) as [x|]; [|injection Ep as <- _; congruence].
    unfold put_file in Ep at 1. destruct (String.eqb data output).
    + destruct (process_file _ _ _ _) as [(ok', sink)| |]; injection Ep as <- _; unfold put_file; rewrite String.eqb_refl; discriminate.
    + destruct (fs data) as [y|].
      * destruct (process_file _ _ _ _) as [(ok', sink)| |]; injection Ep as <- _; unfold put_file; rewrite String.eqb_refl; discriminate.
      * injection Ep as <- _; unfold put_file; rewrite String.eqb_refl; discriminate.
  - rewrite E. destruct (during_writes_changed _ _ _ _ Hw Hd) as (tx & k & Hin & Ek). split; [congruence|].
    apply in_dir_in in Hin as (nm & -> & [[= <- <-]|[]]). destruct Hc as [ts dt samples s tx' H1 H2 H3 H4 H5]. eauto.
  - rewrite E. destruct (during_writes_changed _ _ _ _ Hw Hd) as (tx & k & Hin & Ek). split; [congruence|].
    apply in_dir_in in Hin as (nm & -> & Hin). destruct (written_names _ _ _ _ _ Hws Hin) as (ts & -> & _). eauto.
  - rewrite E. destruct (during_writes_changed _ _ _ _ Hw Hd) as (tx & k & Hin & Ek). split; [congruence|].
    apply in_dir_in in Hin as (nm & -> & Hin). destruct (increasing_names _ _ _ _ _ _ Hws Hin) as (ts & -> & _). eauto.
Qed.

(** The request of an optimization is one the program supports: a supported number of
    tokens for the type, and a starting set (if any loads) that fits it. *)
Definition fits (fs : dir) (p : processing) (t : token_type) (n : N) (input : option string) : Prop :=
  supported t (N.to_nat n) /\
  forall f text ts, input = Some f -> fs f = Some text -> read_token_set text = Ret ts -> good_start (N.to_nat n) p t (Some ts).

(** Then the files that may differ are those of the requested type and processing, for
    at most the requested number of tokens. *)
Theorem C96_optimize_files : forall fs args fs' path data pd tdir p t n input min,
  program fs args fs' -> fs' path <> fs path ->
  parse_args args = Some (Optimize data pd tdir p t n input min) -> fits fs p t n input ->
  exists k, (N.of_nat k <= n)%N /\
    path = join tdir ("tokens" ++ show_nat k ++ "_" ++ processing_name p ++ "_" ++ type_name t ++ ".json")%string.
Proof.
  intros fs args fs' path data0 pd0 tdir0 p0 t0 n0 input0 min0 H Hd Ea (Fs & Fi).
  assert (Name : forall p t n ts, good_result (N.to_nat n) p t ts -> forall tdir, path = join tdir (file_name ts) ->
    exists k, (N.of_nat k <= n)%N /\ path = join tdir ("tokens" ++ show_nat k ++ "_" ++ processing_name p ++ "_" ++ type_name t ++ ".json")%string).
  { intros p t n ts (_ & _ & G1 & G2 & G3) tdir ->. exists (ntokens ts). split; [lia|]. f_equal.
    unfold file_name, ts_name. rewrite G2, G3, !str_app_assoc. reflexivity. }
  assert (Setup : forall threads rounds n p t order reads content input itext, environment threads rounds (N.to_nat n) order reads content ->
    read_maybe fs False input itext -> fits fs p t n input -> run_setup threads rounds (N.to_nat n) p t order reads content itext).
  { intros threads rounds n p t order reads content input itext [E1 E2 E3 E4] Hi (F1 & F2). split; try assumption.
    intros ts Ei. destruct itext as [text|]; [|discriminate]. cbn [input_set] in Ei.
    destruct (read_token_set text) as [ts'| |] eqn:Et; try discriminate. cbn [bind] in Ei. apply ret_inj in Ei. injection Ei as ->.
    destruct input as [f|]; [|contradiction]. destruct Hi as [Hi|[]]. eapply F2; [reflexivity|exact Hi|exact Et]. }
  destruct H as [|U script data output E|U script threads ratio reads data pd input tdir raw processed tokens name text fs' E Hr Hi Hp Hc Hw
    |U script threads ratio reads order clock rounds data pd tdir p t n input raw processed itext content m ws fs' E Hr Hp Hi Hm He Ho Hws Hw
    |U script threads ratio reads order clock near below rounds data pd tdir p t n input min raw processed itext content result saved ws fs' E Hr Hp Hi Hm He Ho Hws Hw];
    try congruence; rewrite E in Ea; injection Ea as -> -> -> -> -> -> -> <-.
  - pose proof (Setup _ _ _ _ _ _ _ _ _ _ He Hi (conj Fs Fi)) as S.
    destruct (during_writes_changed _ _ _ _ Hw Hd) as (tx & k & Hin & _). apply in_dir_in in Hin as (nm & -> & Hin).
    destruct (written_names _ _ _ _ _ Hws Hin) as (ts & -> & Hts).
    destruct (C61_requested_kind_partial _ _ _ _ _ _ _ _ _ _ _ _ _ _ _ S Hm Ho) as (G1 & G2).
    apply (Name p0 t0 n0 ts); [|reflexivity]. destruct Hts as [Hts|(s & Hs & ->)]; [exact (G1 _ Hts)|exact (G2 _ Hs)].
  - pose proof (Setup _ _ _ _ _ _ _ _ _ _ He Hi (conj Fs Fi)) as S.
    destruct (during_writes_changed _ _ _ _ Hw Hd) as (tx & k & Hin & _). apply in_dir_in in Hin as (nm & -> & Hin).
    destruct (increasing_names _ _ _ _ _ _ Hws Hin) as (ts & -> & Hts).
    apply (Name p0 t0 n0 ts); [|reflexivity]. destruct Ho as [data' pre result saved D1 D2 D3].
    rewrite Hm in D1. apply ret_inj in D1. subst data'. destruct S as [S1 S2 S3 S4 S5 S6].
    assert (Gp : good_start (N.to_nat n0) p0 t0 pre) by (destruct pre as [x|]; [apply S6; exact D2|exact I]).
    destruct (moment_good _ _ _ _ _ _ _ _ _ _ _ _ _ _ S1 S2 S3 S4 Gp _ _ D3) as (G1 & G2).
    destruct Hts as [Hts|(s & Hs & ->)]; [exact (G1 _ Hts)|apply (G2 _ Hs)].
Qed.

(** Refused arguments change nothing. *)
Theorem C96_refused_arguments : forall fs args fs', (forall c, ~ asks args c) -> program fs args fs' -> forall path, fs' path = fs path.
Proof.
  intros fs args fs' Hn H path.
  assert (E : parse_args args = None).
  { destruct (parse_args args) as [c|] eqn:E; [|reflexivity]. elim (Hn c). apply C95_command_line. exact E. }
  destruct H; try congruence; reflexivity.
Qed.

(** The hypotheses are met: a run of process that writes its output, and a request
    that fits. *)
Theorem C96_hypotheses_met :
  number "+0300" 300 /\ fits (fun _ => None) Raw Bytes 300 None /\
  exists fs fs', program fs ["process"; "-oout"; "--data=in"]%string fs' /\ fs' "out"%string <> fs "out"%string /\
    fs' "out"%string = Some [x14; x68; x69; x16; x0a].
Proof.
  split; [|split].
  - split; [reflexivity|]. right. eexists. split; [reflexivity|].
    apply (dec_more "030" 30 0); [|reflexivity]. apply (dec_more "03" 3 0); [|reflexivity].
    apply (dec_more "0" 0 3); [|reflexivity]. apply (dec_one 0). reflexivity.
  - split; [split; cbn; try lia; exact I|]. discriminate.
  - exists (fun x => if String.eqb x "in" then Some [x48; x69; x0a] else None).
    eexists. split; [apply (prog_process _ _ PropProcessing.ascii_table [] "in" "out"); reflexivity|].
    split; [discriminate|reflexivity].
Qed.
