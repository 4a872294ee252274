(** * C81: saving and loading a token set of the earlier program: [to_json] and [from_json] of
    src/tokens.rs, at the level of JSON values.  The text that the crate json writes and reads is
    not modelled. *)
From Verif Require Import Base BaseLemmas SortLemmas JsonModel Utf8 LegacyModel LegacySpec LegacyTok PropLegacyTok LegacyOptModel LegacyOptProof
  PropLegacyCache LegacyBytesProof PropLegacyBytes.
From Coq Require Import String Permutation Sorted.
Local Open Scope list_scope.
Local Notation length := List.length.

(** ** The model *)

(** src/tokens.rs:348-374: the fields after tokens and stats; [counts]: [literal_count] *)
Definition enc_fields (e : lenc) (counts : list nat) : list (bstr * json) :=
  match e with
  | LHex => [(lit "type", JStr (lit "fallback16"))]
  | LAll => [(lit "type", JStr (lit "all_tokens"))]
  | LBits1 => [(lit "type", JStr (lit "fallback_bits")); (lit "fallback_bits", JNum 1)]
  | LBits2 => [(lit "type", JStr (lit "fallback_bits")); (lit "fallback_bits", JNum 2)]
  | LBits4 => [(lit "type", JStr (lit "fallback_bits")); (lit "fallback_bits", JNum 4)]
  | LDist2 | LDist4 | LDist8 =>
      [(lit "type", JStr (lit "fallback_distribution")); (lit "literal_count", JArr (map JNum counts))]
  end.

(** src/tokens.rs:320-377 [to_json], and the field that src/optimizer.rs:489-502 [save_token_set]
    adds.  [stats]: the object that [TokenStats::to_json] makes, with floating-point
    numbers.  The strings are distinct, so the unstable sort has one result. *)
Definition l_to_json (ts : lset) (stats : json) (counts : list nat) (processing : bstr) : json :=
  let strs := stable_sort (fun a b => cmp_leb (bstr_cmp a b)) (map lt_string (l_tokens ts)) in
  JObj ([(lit "tokens", JArr (map JNum (seq 0 (reserved_tokens (l_enc ts))) ++ map bytes_to_json strs)); (lit "stats", stats)]
        ++ enc_fields (l_enc ts) counts ++ [(lit "processing", JStr processing)]).

(** src/tokens.rs:266-279.  Simplified: a number with a point, an exponent or a sign has no
    [as_usize]. *)
Definition l_parse_enc (v : json) : outcome lenc :=
  match jindex v (lit "type") with
  | JStr s =>
      if bstr_eqb s (lit "str_with_fallback_bits") || bstr_eqb s (lit "fallback_bits") then
        match jindex v (lit "fallback_bits") with
        | JNum 1 => Ret LBits1 | JNum 2 => Ret LBits2 | JNum 4 => Ret LBits4 | _ => Panic
        end
      else if bstr_eqb s (lit "fallback16") then Ret LHex
      else if bstr_eqb s (lit "fallback_distribution") then Ret LDist8
      else if bstr_eqb s (lit "all_tokens") then Ret LAll
      else Panic
  | _ => Panic
  end.

(** [as_u8().unwrap()] *)
Definition l_as_u8 (v : json) : outcome byte :=
  match v with JNum n => if n <? 256 then Ret (n2b n) else Panic | _ => Panic end.

(** src/tokens.rs:283-297: one member of tokens *)
Definition l_load_token (ts : lset) (v : json) : outcome lset :=
  match v with
  | JStr s => l_add_token ts s
  | JArr l => s <- mmap l_as_u8 l ;; l_add_token ts s
  | JNum n => _ <- assert_that (n <? reserved_tokens (l_enc ts)) ;; Ret ts
  | JReal _ => Panic
  | _ => Ret ts
  end.

(** src/tokens.rs:262-299 [from_json]; [members()] of what is not an array is empty *)
Definition l_from_json (v : json) : outcome lset :=
  e <- l_parse_enc v ;;
  ts <- lset_new e ;;
  mfold l_load_token (match jindex v (lit "tokens") with JArr l => l | _ => [] end) ts.

(** ** The proof *)

(** The mandatory tokens of a set are those of its encoding, in order. *)
Lemma built_mandatory ts : l_built ts -> filter lt_mandatory (l_tokens ts) = map (fun s => mkLtok s true) (mandatory_strings (l_enc ts)).
Proof.
  intros H. induction H as [e ts E|ts s ts' H IH E|ts s ts' H IH E].
  - unfold lset_new in E. apply add_mandatory_fold in E as (Et & Ee). cbn [l_tokens l_enc app] in Et, Ee. rewrite Et, Ee.
    generalize (mandatory_strings e) as l. induction l as [|x l IH]; [reflexivity|]. cbn [map filter lt_mandatory]. f_equal. exact IH.
  - unfold l_add_token in E. destruct (sget (l_by_str ts) s).
    + apply bind_ret in E as (t & _ & E). apply assert_that_bind in E as (_ & E). injection E as <-. exact IH.
    + injection E as <-. cbn [l_tokens l_enc push_token]. rewrite filter_app. cbn [filter lt_mandatory]. rewrite app_nil_r. exact IH.
  - destruct (remove_tokens _ _ _ (l_built_ok _ H) E) as (T & Ee). rewrite Ee, T, <- IH.
    assert (Hs : forall t, In t (l_tokens ts) -> lt_mandatory t = true -> lt_string t <> s).
    { destruct (l_remove_inv ts s ts' (l_built_ok _ H) E) as (i & t0 & Hi & Es & Hm & _). intros t Ht Hmt Est.
      apply In_nth_error in Ht as (j & Hj).
      assert (nth_error (l_strings ts) i = Some s) by (unfold l_strings; rewrite nth_error_map, Hi; cbn; congruence).
      assert (nth_error (l_strings ts) j = Some s) by (unfold l_strings; rewrite nth_error_map, Hj; cbn; congruence).
      apply (l_built_ok _ H s) in H0. apply (l_built_ok _ H s) in H1. congruence. }
    clear - Hs. induction (l_tokens ts) as [|t l IH]; [reflexivity|]. cbn [filter].
    destruct (lt_mandatory t) eqn:Em.
    + destruct (bstr_eqb_spec (lt_string t) s) as [Es|_]; [exfalso; apply (Hs t (or_introl eq_refl) Em Es)|].
      cbn [negb filter]. rewrite Em. f_equal. apply IH. intros u Hu; apply Hs; right; exact Hu.
    + destruct (bstr_eqb (lt_string t) s); cbn [negb filter]; [|rewrite Em]; apply IH; intros u Hu; apply Hs; right; exact Hu.
Qed.

Lemma mmap_bytes s : mmap l_as_u8 (map (fun b => JNum (b2n b)) s) = Ret s.
Proof.
  induction s as [|b s IH]; [reflexivity|]. cbn [map mmap l_as_u8]. destruct (Nat.ltb_spec (b2n b) 256) as [_|H]; [|pose proof (b2n_lt b); lia].
  cbn [bind]. rewrite IH. cbn [bind]. rewrite n2b_b2n. reflexivity.
Qed.

Lemma load_bytes ts s : l_load_token ts (bytes_to_json s) = l_add_token ts s.
Proof. unfold bytes_to_json. destruct (utf8_valid s); [reflexivity|]. cbn [l_load_token]. rewrite mmap_bytes. reflexivity. Qed.

Lemma load_numbers ts l : (forall n, In n l -> n < reserved_tokens (l_enc ts)) -> mfold l_load_token (map JNum l) ts = Ret ts.
Proof.
  induction l as [|n l IH]; intros H; [reflexivity|]. cbn [map mfold l_load_token].
  destruct (Nat.ltb_spec n (reserved_tokens (l_enc ts))) as [_|Hn]; [|specialize (H n (or_introl eq_refl)); lia].
  cbn [assert_that bind]. apply IH. intros m Hm; apply H; right; exact Hm.
Qed.

(** Strings that are not yet tokens are added at the end; mandatory ones change nothing. *)
Lemma load_strings l : forall ts, l_built ts -> NoDup l ->
  (forall t, In t (l_tokens ts) -> In (lt_string t) l -> lt_mandatory t = true) ->
  exists ts', mfold l_load_token (map bytes_to_json l) ts = Ret ts' /\ l_built ts' /\ l_enc ts' = l_enc ts /\
    l_tokens ts' = l_tokens ts ++ map (fun s => mkLtok s false) (filter (fun s => negb (existsb (bstr_eqb s) (l_strings ts))) l).
Proof.
  induction l as [|s l IH]; intros ts Hb Hnd Hm.
  { exists ts. cbn. rewrite app_nil_r. auto. }
  apply NoDup_cons_iff in Hnd as (Hs & Hnd). cbn [map mfold]. rewrite load_bytes. cbn [filter].
  destruct (existsb (bstr_eqb s) (l_strings ts)) eqn:Ex.
  - assert (E : l_add_token ts s = Ret ts).
    { apply existsb_in in Ex. unfold l_add_token. apply In_nth_error in Ex as (i & Hi). pose proof Hi as Hi'. apply (l_built_ok _ Hb s) in Hi'. rewrite Hi'.
      unfold l_strings in Hi. rewrite nth_error_map in Hi. unfold idx. destruct (nth_error (l_tokens ts) i) as [t|] eqn:Et; [|discriminate Hi].
      injection Hi as Hi. cbn [unwrap bind]. rewrite (Hm t); [reflexivity|eapply nth_error_In; exact Et|left; symmetry; exact Hi]. }
    rewrite E. cbn [bind negb]. apply IH; auto. intros t Ht Hin. apply Hm; [exact Ht|right; exact Hin].
  - assert (Hns : ~ In s (l_strings ts)) by (intros H; apply existsb_in in H; congruence).
    assert (E : l_add_token ts s = Ret (push_token ts s false)).
    { unfold l_add_token. rewrite (proj2 (indexes_None _ _ _ (l_built_ok _ Hb)) Hns). reflexivity. }
    rewrite E. cbn [bind negb map].
    destruct (IH (push_token ts s false)) as (ts' & E' & Hb' & He' & T').
    + eapply lb_add; eassumption.
    + exact Hnd.
    + intros t Ht Hin. cbn [l_tokens push_token] in Ht. apply in_app_or in Ht as [Ht|[<-|[]]]; [apply Hm; [exact Ht|right; exact Hin]|].
      cbn in Hin. contradiction.
    + exists ts'. split; [exact E'|]. split; [exact Hb'|]. split; [exact He'|]. rewrite T'. cbn [l_tokens push_token]. rewrite <- app_assoc. cbn [app]. do 2 f_equal.
      f_equal. apply filter_ext_in. intros x Hx. unfold l_strings, push_token. cbn [l_tokens]. rewrite map_app, existsb_app. cbn [map lt_string existsb].
      destruct (bstr_eqb_spec x s) as [->|_]; [contradiction|]. rewrite !orb_false_r. reflexivity.
Qed.

Lemma parse_enc ts stats counts p : l_enc ts <> LDist2 -> l_enc ts <> LDist4 -> l_parse_enc (l_to_json ts stats counts p) = Ret (l_enc ts).
Proof. intros H2 H4. unfold l_to_json. destruct (l_enc ts); try reflexivity; congruence. Qed.

Lemma json_tokens ts stats counts p : jindex (l_to_json ts stats counts p) (lit "tokens") =
  JArr (map JNum (seq 0 (reserved_tokens (l_enc ts))) ++ map bytes_to_json (stable_sort (fun a b => cmp_leb (bstr_cmp a b)) (l_strings ts))).
Proof. reflexivity. Qed.

Lemma filter_split {A} (p : A -> bool) l : Permutation (filter p l ++ filter (fun x => negb (p x)) l) l.
Proof.
  induction l as [|x l IH]; [constructor|]. cbn [filter]. destruct (p x); cbn [negb app].
  - constructor; exact IH.
  - rewrite <- Permutation_middle. constructor; exact IH.
Qed.

Lemma built_new ts : l_built ts -> exists ts0, lset_new (l_enc ts) = Ret ts0.
Proof.
  intros H. induction H as [e ts E|ts s ts' H IH E|ts s ts' H IH E].
  - exists ts. pose proof E as E'. unfold lset_new in E'. apply add_mandatory_fold in E' as (_ & Ee). cbn [l_enc] in Ee. rewrite Ee. exact E.
  - unfold l_add_token in E. destruct (sget (l_by_str ts) s).
    + apply bind_ret in E as (t & _ & E). apply assert_that_bind in E as (_ & E). injection E as <-. exact IH.
    + injection E as <-. exact IH.
  - destruct (remove_tokens _ _ _ (l_built_ok _ H) E) as (_ & ->). exact IH.
Qed.

Lemma nodup_same {A B} (f : A -> B) l : NoDup (map f l) -> forall x y, In x l -> In y l -> f x = f y -> x = y.
Proof.
  induction l as [|a l IH]; intros Hnd x y Hx Hy E; [destruct Hx|]. cbn in Hnd. apply NoDup_cons_iff in Hnd as (Ha & Hnd).
  destruct Hx as [->|Hx], Hy as [->|Hy]; auto.
  - exfalso. apply Ha. rewrite E. apply in_map; exact Hy.
  - exfalso. apply Ha. rewrite <- E. apply in_map; exact Hx.
Qed.

(** ** C81
    Except for [Dist2] and [Dist4], a set that was saved is loaded as a set of the same tokens, mandatory
    or not, and the same encoding: it costs the same on all samples and would be saved as the same
    value.  The order is another: the mandatory tokens first, then the others sorted. *)
Theorem C81_json_partial ts stats counts processing : l_built ts -> l_enc ts <> LDist2 -> l_enc ts <> LDist4 ->
  exists ts', l_from_json (l_to_json ts stats counts processing) = Ret ts' /\ l_built ts' /\ l_enc ts' = l_enc ts /\
    Permutation (l_tokens ts') (l_tokens ts) /\ l_ntokens ts' = l_ntokens ts /\
    (forall samples k, l_costs ts' samples k <-> l_costs ts samples k) /\
    forall st c p, l_to_json ts' st c p = l_to_json ts st c p.
Proof.
  intros Hb H2 H4. unfold l_from_json. rewrite parse_enc by assumption. cbn [bind]. destruct (built_new ts Hb) as (ts0 & E0). rewrite E0. cbn [bind].
  assert (Hb0 : l_built ts0) by (eapply lb_new; exact E0).
  pose proof E0 as E0'. unfold lset_new in E0'. apply add_mandatory_fold in E0' as (T0 & Ee0). cbn [l_tokens l_enc app] in T0, Ee0.
  rewrite json_tokens, mfold_app, load_numbers. 2:{ intros n Hn. apply in_seq in Hn. rewrite Ee0. lia. }
  cbn [bind]. set (strs := stable_sort (fun a b => cmp_leb (bstr_cmp a b)) (l_strings ts)).
  pose proof (sort_perm (fun a b => cmp_leb (bstr_cmp a b)) (l_strings ts)) as Hp. fold strs in Hp.
  pose proof (indexes_NoDup _ _ (l_built_ok _ Hb)) as Hnd. fold (l_strings ts) in Hnd.
  destruct (load_strings strs ts0 Hb0) as (ts' & E' & Hb' & He' & T').
  { eapply Permutation_NoDup; [apply Permutation_sym; exact Hp|exact Hnd]. }
  { intros t Ht _. rewrite T0 in Ht. apply in_map_iff in Ht as (s & <- & _). reflexivity. }
  exists ts'. split; [exact E'|]. split; [exact Hb'|].
  assert (He : l_enc ts' = l_enc ts) by congruence. split; [exact He|].
  pose proof (built_mandatory ts Hb) as Hm. rewrite <- T0 in Hm.
  assert (Hperm : Permutation (l_tokens ts') (l_tokens ts)).
  { rewrite T'. rewrite <- (filter_split lt_mandatory (l_tokens ts)) at 1. rewrite Hm. apply Permutation_app_head.
    etransitivity; [apply Permutation_map, filter_perm; exact Hp|].
    assert (Hmem : forall t, In t (l_tokens ts) -> existsb (bstr_eqb (lt_string t)) (l_strings ts0) = lt_mandatory t).
    { intros t Ht. destruct (lt_mandatory t) eqn:Em.
      - apply existsb_in. unfold l_strings. rewrite <- Hm. apply in_map. apply filter_In. auto.
      - destruct (existsb (bstr_eqb (lt_string t)) (l_strings ts0)) eqn:Ex; [|reflexivity]. apply existsb_in in Ex.
        unfold l_strings in Ex. rewrite <- Hm in Ex. apply in_map_iff in Ex as (u & Eu & Hu). apply filter_In in Hu as (Hu & Hmu).
        rewrite <- Em, <- Hmu. f_equal. apply (nodup_same lt_string (l_tokens ts)); auto. }
    clear - Hmem. unfold l_strings at 2. revert Hmem. generalize (l_strings ts0) as m. intros m Hmem.
    induction (l_tokens ts) as [|t l IH]; [constructor|]. cbn [map filter]. rewrite (Hmem t (or_introl eq_refl)).
    destruct t as [s b]. cbn [lt_mandatory lt_string] in *. destruct b; cbn [negb map]; [|constructor]; apply IH; intros u Hu; apply Hmem; right; exact Hu. }
  assert (Hps : Permutation (l_strings ts') (l_strings ts)) by (apply Permutation_map; exact Hperm).
  split; [exact Hperm|]. split; [unfold l_ntokens; rewrite (Permutation_length Hperm), He; reflexivity|]. split.
  - intros samples k. split; apply l_costs_same; auto using l_built_ok, Permutation_sym.
  - intros st c p. unfold l_to_json. rewrite He. unfold l_strings in Hps.
    assert (Es : stable_sort (fun a b => cmp_leb (bstr_cmp a b)) (map lt_string (l_tokens ts')) =
      stable_sort (fun a b => cmp_leb (bstr_cmp a b)) (map lt_string (l_tokens ts))); [|rewrite Es; reflexivity].
    apply sort_unique; [| |  |exact Hps].
    + intros x y. rewrite (bstr_cmp_opp x y). destruct (bstr_cmp x y); auto.
    + apply bstr_cmp_trans.
    + intros x y _ _ Hxy Hyx. apply bstr_cmp_eq. rewrite (bstr_cmp_opp x y) in Hyx. destruct (bstr_cmp x y); [reflexivity|discriminate Hyx|discriminate Hxy].
Qed.

(** [Dist2] and [Dist4] are loaded as [Dist8]: literals get dearer. *)
Theorem C81_json_refuted : forall e, e = LDist2 \/ e = LDist4 -> exists ts ts' w, l_built ts /\ l_enc ts = e /\
  (forall stats counts processing, l_from_json (l_to_json ts stats counts processing) = Ret ts') /\
  forall k k', l_costs ts [w] k -> l_costs ts' [w] k' -> k < k'.
Proof.
  intros e He. exists (mkLset [] [] e), (mkLset [] [] LDist8), la.
  assert (Hb : l_built (mkLset [] [] e)) by (apply (lb_new e); destruct He as [-> | ->]; reflexivity).
  assert (Hb8 : l_built (mkLset [] [] LDist8)) by (apply (lb_new LDist8); reflexivity).
  split; [exact Hb|]. split; [reflexivity|]. split; [intros stats counts processing; destruct He as [-> | ->]; reflexivity|].
  assert (Hcost : forall e' k, l_costs (mkLset [] [] e') [la] k -> k = literal_cost e').
  { intros e' k (f & Hf & ->). cbn [map]. rewrite sum_cons. change (sum []) with 0. destruct (Hf la) as (H & _). revert H. generalize (f la) as ys. intros ys H.
    remember la as w eqn:Ew in H. destruct H as [|x xs s r Hx Hr]; [discriminate Ew|].
    destruct x as [i|b|]; cbn in Hx; [destruct i; discriminate Hx| |discriminate Hx]. injection Hx as <-. cbn in Ew. injection Ew as _ Er.
    destruct Hr as [|x xs s r Hx Hr]; [unfold l_seg_cost; cbn; lia|]. apply app_eq_nil in Er as (-> & _).
    destruct x as [i|c|]; cbn in Hx; [destruct i; discriminate Hx|discriminate Hx|discriminate Hx]. }
  intros k k' Hk Hk'. apply Hcost in Hk, Hk'. subst. destruct He as [-> | ->]; cbn; lia.
Qed.

(** A case of the hypotheses: two tokens, one of them not UTF-8. *)
Example C81_example : exists ts', l_from_json (l_to_json (set2 [n2b 200; n2b 97] la) JNull [1; 2] (lit "raw")) = Ret ts' /\
  l_tokens ts' = [mkLtok la false; mkLtok [n2b 200; n2b 97] false].
Proof. eexists. split; [vm_compute; reflexivity|reflexivity]. Qed.
