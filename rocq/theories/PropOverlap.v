(** * Property C110: runs that write the same file at the same time. *)
From Coq Require Import String.
From Verif Require Import Base BaseLemmas TokenSetModel TokenizerModel BatchModel JsonModel JsonText JsonProof PropJson
  OptimizeProof3 CommandsModel PropFiles OverlapModel.
Local Open Scope list_scope.
Local Notation length := List.length.

(** A file that the program saves: a set, or statistics with their set. *)
Definition saved_text (name : string) (text : bstr) : Prop :=
  exists ratio s, name = file_name (st_token_set s) /\
    (set_text (st_token_set s) = Ret text \/ writable ratio s /\ stats_text ratio s = Ret text).

Lemma saved_shape name text : saved_text name text ->
  exists fs, jwf (JObj fs) /\ jdepth (JObj fs) <= 127 /\ text = show (JObj fs).
Proof.
  intros (ratio & s & _ & H). destruct H as [H|(W & H)].
  - unfold set_text in H. apply bind_ret in H as (v & E & H). apply ret_inj in H.
    destruct (jwf_ts _ _ E) as (fs & -> & W3 & D3 & _). exists fs. split; [exact W3|]. split; [lia|]. symmetry; exact H.
  - unfold stats_text in H. apply bind_ret in H as (v & E & H). apply ret_inj in H.
    destruct (jwf_stats ratio s W) as (W1 & D1).
    unfold stats_to_json in E. destruct (ts_to_json (st_token_set s)) as [j| |] eqn:Ej; try discriminate.
    destruct (jwf_stats_json _ _ _ Ej W1 D1) as (fs & E' & W2 & D2).
    unfold stats_to_json in E'. rewrite Ej in E'. rewrite E in E'. apply ret_inj in E'. subst v.
    exists fs. split; [exact W2|]. split; [lia|]. symmetry; exact H.
Qed.

Definition closed (s : bstr) : Prop := exists u, s = u ++ [x7d].
Lemma saved_closed name text : saved_text name text -> closed text.
Proof. intros H. destruct (saved_shape _ _ H) as (fs & _ & _ & ->). rewrite show_obj. exists (x7b :: show_fields true fs). reflexivity. Qed.

Lemma skip_closed s : closed s -> skip_ws s <> [].
Proof.
  intros (u & ->). induction u as [|b u IH]; [discriminate|]. cbn. destruct (is_ws b); [exact IH|discriminate].
Qed.

Lemma read_object fs r F : jwf (JObj fs) -> jdepth (JObj fs) <= 127 -> 2 * length (show (JObj fs)) + 2 <= F ->
  pvalue F 128 (show (JObj fs) ++ r) = Some (JObj fs, r).
Proof.
  intros W Hd HF. inversion W as [| | | | | |fs' Hl Hs]; subst. rewrite show_obj in *. cbn [app].
  destruct F as [|F]; [lia|]. cbn [jdepth] in Hd.
  cbn [pvalue skip_ws is_ws]. change (is_ws x7b) with false. cbv iota beta.
  change (Byte.eqb x7b x6e) with false. change (Byte.eqb x7b x74) with false.
  change (Byte.eqb x7b x66) with false. change (Byte.eqb x7b quote) with false.
  change (Byte.eqb x7b x5b) with false. change (Byte.eqb x7b x7b) with true. cbv iota.
  rewrite <- app_assoc. cbn [app].
  cbn [length] in HF. rewrite app_length in HF. cbn [length] in HF.
  rewrite pfields_show; [| |lia|lia].
  - cbn [option_map fst snd]. rewrite fold_obj_set by exact Hs. reflexivity.
  - rewrite Forall_forall in *. intros kv Hkv. destruct (Hl kv Hkv) as (Hk & Hv). split; [exact Hk|].
    split; [exact Hv|]. apply pvalue_show; assumption.
Qed.

(** A complete file with more behind it does not load. *)
Lemma tail_rejected name text tail : saved_text name text -> closed tail -> read_token_set (text ++ tail) = Panic.
Proof.
  intros H Ht. destruct (saved_shape _ _ H) as (fs & W & D & ->).
  assert (P : parse_json (show (JObj fs) ++ tail) = None); [|unfold read_token_set; rewrite P; reflexivity].
  unfold parse_json. rewrite read_object; [|exact W|exact D|rewrite app_length; lia].
  destruct (skip_ws tail) eqn:E; [|reflexivity]. exfalso. exact (skip_closed _ Ht E).
Qed.

Lemma closed_tail k s : closed s -> skipn k s <> [] -> closed (skipn k s).
Proof.
  intros (u & ->) H. rewrite skipn_app in *. destruct (k - length u) eqn:E.
  - cbn [skipn] in *. exists (skipn k u). reflexivity.
  - exfalso. apply H. rewrite skipn_all2 by lia. cbn. destruct n; reflexivity.
Qed.

(** ** Unsplit writes *)
Section Unsplit.
Variables (d0 : dir) (ws0 : list writer).
Hypothesis Hstart : forall w, In w ws0 -> w_open w = None.
Hypothesis Hsaved : forall w name text, In w ws0 -> In (name, text) (w_todo w) -> saved_text name text.

Definition of_run name text := exists w, In w ws0 /\ In (name, text) (w_todo w).

Definition made (name : string) (c : bstr) : Prop :=
  c = [] \/ exists text tail, of_run name text /\ c = text ++ tail /\ (tail = [] \/ closed tail).

Definition fine (d : dir) (w : writer) : Prop :=
  (forall name text, In (name, text) (w_todo w) -> of_run name text) /\
  (forall name off rest, w_open w = Some (name, off, rest) ->
     (exists c, d name = Some c /\ made name c) /\ (rest = [] \/ off = 0 /\ of_run name rest)).

Lemma made_closed name c : made name c -> c = [] \/ closed c.
Proof.
  intros [->|(t & tail & (w & Hw & Ht) & -> & [->|(u & ->)])]; [auto| |].
  - right. rewrite app_nil_r. apply (saved_closed name), (Hsaved w); assumption.
  - right. exists (t ++ u). apply app_assoc.
Qed.

Lemma made_overlay name c text : made name c -> of_run name text -> made name (overlay c 0 text).
Proof.
  intros Hm Ht. right. exists text, (skipn (length text) c). split; [exact Ht|]. split; [reflexivity|].
  destruct (skipn (length text) c) eqn:E; [auto|right]. rewrite <- E.
  destruct (made_closed _ _ Hm) as [->|Hc]; [rewrite skipn_nil in E; discriminate|].
  apply closed_tail; [exact Hc|]. rewrite E. discriminate.
Qed.

Lemma unsplit_inv d ws : together False d0 ws0 d ws ->
  (forall name, d name = d0 name \/ exists c, d name = Some c /\ made name c) /\ (forall w, In w ws -> fine d w).
Proof.
  intros H. induction H as [|d1 before w w' after d2 H IH A].
  - split; [auto|]. intros w Hw. split; [intros name text Hi; exists w; auto|]. intros name off rest E.
    rewrite (Hstart _ Hw) in E. discriminate.
  - destruct IH as (I1 & I2).
    assert (Hw : fine d1 w) by (apply I2, in_app_iff; right; left; reflexivity).
    assert (Hput : forall name c, made name c -> (forall n, put_file d1 name c n = d0 n \/ exists c', put_file d1 name c n = Some c' /\ made n c') /\
      forall v, fine d1 v -> fine (put_file d1 name c) v).
    { intros name c Hm. split.
      - intros n. unfold put_file. destruct (String.eqb_spec n name) as [->|]; [right; eauto|apply I1].
      - intros v (F1 & F2). split; [exact F1|]. intros n off rest E. destruct (F2 n off rest E) as (F3 & F4). split; [|exact F4].
        unfold put_file. destruct (String.eqb_spec n name) as [->|]; [eauto|exact F3]. }
    assert (Hrest : forall d3, (forall v, fine d1 v -> fine d3 v) -> fine d3 w' -> forall v, In v (before ++ w' :: after) -> fine d3 v).
    { intros d3 M F v Hv. apply in_app_iff in Hv as [Hv|[<-|Hv]]; [|exact F|]; apply M, I2, in_app_iff; cbn; auto. }
    destruct Hw as (F1 & F2). destruct A as [name text todo|name off k rest todo Hk Hs|name off todo]; cbn [w_open w_todo] in *.
    + destruct (Hput name [] (or_introl eq_refl)) as (P1 & P2). split; [exact P1|]. apply Hrest; [exact P2|].
      split; cbn [w_open w_todo]; [intros n t Ht; apply F1; right; exact Ht|]. intros n off rest E. injection E as <- <- <-. split.
      * exists []. unfold put_file. rewrite String.eqb_refl. split; [reflexivity|left; reflexivity].
      * right. split; [reflexivity|]. apply F1. left. reflexivity.
    + destruct Hs as [Hs|[]]. subst k. rewrite firstn_all, skipn_all. rewrite skipn_all in Hrest.
      destruct (F2 name off rest eq_refl) as ((c & Ec & Hm) & [->|(-> & Hr)]); [cbn in Hk; lia|].
      assert (Hm' : made name (overlay (content d1 name) 0 rest)) by (unfold content; rewrite Ec; apply made_overlay; assumption).
      destruct (Hput name _ Hm') as (P1 & P2). split; [exact P1|]. apply Hrest; [exact P2|].
      split; cbn [w_open w_todo]; [exact F1|]. intros n off r E. injection E as <- <- <-. split; [|left; reflexivity].
      unfold put_file. rewrite String.eqb_refl. eauto.
    + split; [exact I1|]. apply Hrest; [auto|]. split; cbn [w_open w_todo]; [exact F1|discriminate].
Qed.
End Unsplit.

(** Any number of programs save any files at the same time, in any order of their
    actions, any of them stopping anywhere, each call of [write] writing all it is given.  Then a file that loads is
    as it was before, or one of the files saved, complete. *)
Theorem C110_overlapping_saves_partial : forall d0 runs d ws,
  (forall r name text, In r runs -> In (name, text) r -> saved_text name text) ->
  together False d0 (map starting runs) d ws ->
  forall name text ts, d name = Some text -> read_token_set text = Ret ts ->
  d0 name = Some text \/ exists r, In r runs /\ In (name, text) r.
Proof.
  intros d0 runs d ws Hs H name text ts E L.
  assert (Hsaved : forall w n t, In w (map starting runs) -> In (n, t) (w_todo w) -> saved_text n t).
  { intros w n t Hw Ht. apply in_map_iff in Hw as (r & <- & Hr). exact (Hs r n t Hr Ht). }
  destruct (unsplit_inv d0 (map starting runs)) with (d := d) (ws := ws) as (I1 & _); auto.
  { intros w Hw. apply in_map_iff in Hw as (r & <- & _). reflexivity. }
  destruct (I1 name) as [I|(c & I & M)]; [left; congruence|]. rewrite E in I. injection I as <-. right.
  destruct M as [->|(t & tail & (w & Hw & Ht) & -> & [->|Hc])].
  - cbn in L. discriminate.
  - rewrite app_nil_r. apply in_map_iff in Hw as (r & <- & Hr). exists r. split; [exact Hr|exact Ht].
  - rewrite (tail_rejected name t tail) in L; [discriminate| |exact Hc]. apply (Hsaved w); assumption.
Qed.

(** ** What can go wrong *)
Lemma act_write_all split d name off rest todo : 1 <= length rest ->
  acts split d (mkWriter (Some (name, off, rest)) todo)
    (put_file d name (overlay (content d name) off rest)) (mkWriter (Some (name, off + length rest, [])) todo).
Proof.
  intros H. pose proof (act_write split d name off (length rest) rest todo) as A. rewrite firstn_all, skipn_all in A.
  apply A; [lia|left; reflexivity].
Qed.

(** Both programs end normally, and neither file is there: whenever two programs save files of different
    lengths under one name, the longer one can be written over by the shorter one without being truncated. *)
Theorem C110_both_lost_refuted : forall d0 name t1 t2, saved_text name t1 -> saved_text name t2 -> length t1 < length t2 ->
  exists d ws c, together False d0 (map starting [[(name, t1)]; [(name, t2)]]) d ws /\ Forall finished ws /\
    d name = Some c /\ read_token_set c = Panic.
Proof.
  intros d0 name t1 t2 S1 S2 Hl.
  assert (L1 : 1 <= length t1).
  { destruct (saved_closed _ _ S1) as (u & ->). rewrite app_length. cbn. lia. }
  assert (P1 : forall d c, content (put_file d name c) name = c) by (intros; unfold content, put_file; rewrite String.eqb_refl; reflexivity).
  eexists _, [starting []; starting []], (t1 ++ skipn (length t1) t2). split; [|split; [|split]].
  - eapply (tg_step _ _ _ _ [starting []]); [|apply (act_close _ _ name (0 + length t2))].
    eapply (tg_step _ _ _ _ []); [|apply (act_close _ _ name (0 + length t1))]. cbn [app].
    eapply (tg_step _ _ _ _ []); [|apply (act_write_all _ _ name 0 t1); lia]. cbn [app].
    eapply (tg_step _ _ _ _ [_]); [|apply (act_write_all _ _ name 0 t2); lia]. cbn [app].
    eapply (tg_step _ _ _ _ [_]); [|apply act_create]. cbn [app].
    eapply (tg_step _ _ _ _ []); [|apply act_create]. cbn [app].
    apply tg_refl.
  - repeat constructor.
  - unfold put_file at 1. rewrite String.eqb_refl. f_equal. rewrite P1, P1. unfold overlay.
    cbn [firstn app Nat.add]. rewrite skipn_nil, app_nil_r. reflexivity.
  - apply (tail_rejected name); [exact S1|]. apply closed_tail; [exact (saved_closed _ _ S2)|].
    intros E. apply (f_equal (@length byte)) in E. rewrite skipn_length in E. cbn in E. lia.
Qed.

(** If a call of [write] may write less than it is given, two programs that end normally can leave a file that loads as a
    set that neither of them saved. *)
Definition mixed_ex (b c : byte) : tokenset :=
  mkTS 2 BytesHuff Raw false [Ext x00; Ext x01; Str [x61]; Str [b; c]] [mkSeq [x62] [2; 0]; mkSeq [x63] [2; 1]].
Definition mixed_head : bstr := lit
  "{""processing"":""raw"",""sequences"":[{""string"":""b"",""tokens"":[""a"",0]},{""string"":""c"",""tokens"":[""a"",1]}],""split_paragraphs"":false,""tokens"":[0,1,""a"",""".
Definition mixed_tail : bstr := lit """],""type"":""byteshuff""}".
Definition mixed_text (b c : byte) : bstr := mixed_head ++ [b] ++ [c] ++ mixed_tail.

Lemma overlay_mix P Q (b c b' c' : byte) :
  overlay (overlay (overlay [] 0 (P ++ [b])) 0 (P ++ [b'] ++ [c'] ++ Q)) (length (P ++ [b])) ([c] ++ Q) = P ++ [b'] ++ [c] ++ Q.
Proof.
  assert (E : overlay (overlay [] 0 (P ++ [b])) 0 (P ++ [b'] ++ [c'] ++ Q) = P ++ [b'] ++ [c'] ++ Q).
  { unfold overlay. cbn [firstn app Nat.add Nat.sub]. rewrite skipn_nil, app_nil_r. rewrite skipn_all2; [apply app_nil_r|].
    rewrite !app_length. cbn. lia. }
  rewrite E. unfold overlay. rewrite app_length. cbn [length app].
  replace (length P + 1 - length (P ++ b' :: c' :: Q)) with 0 by (rewrite app_length; cbn; lia). cbn [repeat]. rewrite app_nil_r.
  rewrite firstn_app, firstn_all2 by lia. replace (length P + 1 - length P) with 1 by lia. cbn [firstn].
  rewrite skipn_all2 by (rewrite app_length; cbn; lia). rewrite app_nil_r, <- app_assoc. reflexivity.
Qed.

Theorem C110_mixed_refuted : exists name t1 t2, saved_text name t1 /\ saved_text name t2 /\
  set_text (mixed_ex x62 x63) = Ret t1 /\ set_text (mixed_ex x64 x65) = Ret t2 /\
  forall d0, exists d ws c, together True d0 (map starting [[(name, t1)]; [(name, t2)]]) d ws /\ Forall finished ws /\
    d name = Some c /\ read_token_set c = Ret (mixed_ex x64 x63).
Proof.
  exists (file_name (mixed_ex x62 x63)), (mixed_text x62 x63), (mixed_text x64 x65).
  assert (E1 : set_text (mixed_ex x62 x63) = Ret (mixed_text x62 x63)) by reflexivity.
  assert (E2 : set_text (mixed_ex x64 x65) = Ret (mixed_text x64 x65)) by reflexivity.
  assert (E3 : read_token_set (mixed_text x64 x63) = Ret (mixed_ex x64 x63)) by reflexivity.
  split; [exists (fun _ _ => []), (mkStats (mixed_ex x62 x63) 0 None 0 [] [] []); split; [reflexivity|left; exact E1]|].
  split; [exists (fun _ _ => []), (mkStats (mixed_ex x64 x65) 0 None 0 [] [] []); split; [reflexivity|left; exact E2]|].
  split; [exact E1|]. split; [exact E2|]. intros d0.
  generalize (file_name (mixed_ex x62 x63)) as name. intros name. clear E1 E2.
  unfold mixed_text in *. revert E3. generalize mixed_head mixed_tail. intros P Q E3.
  assert (P1 : forall d c, content (put_file d name c) name = c) by (intros; unfold content, put_file; rewrite String.eqb_refl; reflexivity).
  assert (L1 : forall c, P ++ [x62] ++ [c] ++ Q = (P ++ [x62]) ++ [c] ++ Q) by (intros; rewrite <- app_assoc; reflexivity).
  assert (L2 : length (P ++ [x62]) = S (length P)) by (rewrite app_length; cbn; lia).
  eexists _, [starting []; starting []], (P ++ [x64] ++ [x63] ++ Q). split; [|split; [|split; [|exact E3]]].
  - cbn [map starting]. rewrite (L1 x63).
    eapply (tg_step _ _ _ _ [starting []]); [|apply (act_close _ _ name (0 + length (P ++ [x64] ++ [x65] ++ Q)))].
    eapply (tg_step _ _ _ _ []); [|apply (act_close _ _ name (0 + length (P ++ [x62]) + length ([x63] ++ Q)))]. cbn [app].
    eapply (tg_step _ _ _ _ []); [|apply (act_write_all _ _ name (0 + length (P ++ [x62])) ([x63] ++ Q)); cbn; lia]. cbn [app].
    eapply (tg_step _ _ _ _ [_]); [|apply (act_write_all _ _ name 0 (P ++ [x64] ++ [x65] ++ Q)); rewrite app_length; cbn; lia]. cbn [app].
    eapply (tg_step _ _ _ _ []).
    2:{ replace (x63 :: Q) with (skipn (length (P ++ [x62])) ((P ++ [x62]) ++ [x63] ++ Q))
          by (rewrite skipn_app, skipn_all, Nat.sub_diag; reflexivity).
        apply act_write; [rewrite !app_length; cbn; lia|right; exact I]. }
    cbn [app].
    eapply (tg_step _ _ _ _ [_]); [|apply act_create]. cbn [app].
    eapply (tg_step _ _ _ _ []); [|apply act_create]. cbn [app].
    apply tg_refl.
  - repeat constructor.
  - unfold put_file at 1. rewrite String.eqb_refl. f_equal. rewrite !P1.
    rewrite firstn_app, firstn_all, Nat.sub_diag. cbn [firstn]. rewrite app_nil_r.
    apply overlay_mix.
Qed.

(** ** Programs that save different files *)
Lemma nth_mid {A} (b : list A) x y a i : nth_error (b ++ y :: a) i =
  if Nat.eqb i (length b) then Some y else nth_error (b ++ x :: a) i.
Proof.
  destruct (Nat.eqb_spec i (length b)) as [->|N].
  - rewrite nth_error_app2, Nat.sub_diag by lia. reflexivity.
  - destruct (Nat.lt_ge_cases i (length b)).
    + rewrite !nth_error_app1 by lia. reflexivity.
    + rewrite !nth_error_app2 by lia. destruct (i - length b) eqn:E; [lia|]. reflexivity.
Qed.

Lemma put_files_app d a b : put_files d (a ++ b) = put_files (put_files d a) b.
Proof. revert d; induction a as [|(n, t) a IH]; intros d; cbn; [reflexivity|]. apply IH. Qed.

Lemma overlay_next off k text : off <= length text ->
  overlay (firstn off text) off (firstn k (skipn off text)) = firstn (off + k) text.
Proof.
  intros H. unfold overlay. rewrite firstn_length_le by exact H. rewrite Nat.sub_diag. cbn [repeat]. rewrite app_nil_r, firstn_firstn, Nat.min_id.
  rewrite (skipn_all2 (n := off + length (firstn k (skipn off text))) (firstn off text)) by (rewrite !firstn_length; lia). rewrite app_nil_r.
  rewrite <- (firstn_skipn off text) at 3. rewrite firstn_app, firstn_firstn, firstn_length_le by exact H.
  replace (off + k - off) with k by lia. replace (Nat.min (off + k) off) with off by lia. reflexivity.
Qed.

Section Alone.
Variables (split : Prop) (d0 : dir) (before : list (list (string * bstr))) (r : list (string * bstr)) (after : list (list (string * bstr))).
Variable name : string.
Hypothesis Halone : forall r', In r' (before ++ after) -> ~ In name (map fst r').

Definition other (w : writer) : Prop :=
  ~ In name (map fst (w_todo w)) /\ match w_open w with Some (m, _, _) => m <> name | None => True end.
Definition mine (d : dir) (w : writer) : Prop :=
  exists done, match w_open w with
  | None => r = done ++ w_todo w /\ d name = put_files d0 done name
  | Some (m, off, rest) => exists text, r = done ++ (m, text) :: w_todo w /\ off <= length text /\ rest = skipn off text /\
      (if String.eqb m name then d name = Some (firstn off text) else d name = put_files d0 done name)
  end.

Lemma alone_inv d ws : together split d0 (map starting (before ++ r :: after)) d ws ->
  length ws = length (before ++ r :: after) /\
  forall i w, nth_error ws i = Some w -> if Nat.eqb i (length before) then mine d w else other w.
Proof.
  intros H. induction H as [|d1 b w w' a d2 H (Hlen & IH) A].
  - split; [apply map_length|]. intros i w E. rewrite nth_error_map in E.
    destruct (nth_error (before ++ r :: after) i) as [r'|] eqn:En; [|discriminate]. injection E as <-.
    destruct (Nat.eqb_spec i (length before)) as [->|N].
    + rewrite nth_error_app2, Nat.sub_diag in En by lia. injection En as <-. exists []. cbn. auto.
    + split; [|exact I]. cbn. apply Halone. destruct (Nat.lt_ge_cases i (length before)).
      * rewrite nth_error_app1 in En by lia. apply in_app_iff. left. eapply nth_error_In; eassumption.
      * rewrite nth_error_app2 in En by lia. destruct (i - length before) eqn:Ei; [lia|]. cbn in En.
        apply in_app_iff. right. eapply nth_error_In; eassumption.
  - split; [rewrite app_length in *; cbn in *; lia|]. intros i v E. rewrite (nth_mid b w w' a i) in E.
    pose proof (IH (length b) w) as Hw. rewrite nth_error_app2, Nat.sub_diag in Hw by lia. specialize (Hw eq_refl).
    assert (Hsame : other w -> d2 name = d1 name).
    { intros (O1 & O2). destruct A as [m text todo|m off k rest todo Hk Hs|m off todo]; cbn [w_open w_todo map fst] in *; [| |reflexivity];
        unfold put_file; destruct (String.eqb_spec name m) as [->|]; try reflexivity; exfalso; [apply O1; left; reflexivity|apply O2; reflexivity]. }
    destruct (Nat.eqb_spec (length b) (length before)) as [Eb|Nb].
    + rewrite <- Eb. destruct (Nat.eqb_spec i (length b)) as [->|N].
      * injection E as <-. destruct Hw as (done & Hw). clear IH Hsame.
        destruct A as [m text todo|m off k rest todo Hk Hs|m off todo]; unfold mine; cbn [w_open w_todo] in *.
        -- destruct Hw as (Er & Ed). exists done, text. split; [exact Er|]. split; [lia|]. split; [reflexivity|].
           unfold put_file. rewrite String.eqb_sym. destruct (String.eqb_spec name m); [reflexivity|exact Ed].
        -- destruct Hw as (text & Er & Ho & -> & Ed). exists done, text. split; [exact Er|]. rewrite skipn_length in Hk.
           split; [lia|]. split; [rewrite skipn_skipn, Nat.add_comm; reflexivity|]. unfold put_file. rewrite String.eqb_sym in *.
           destruct (String.eqb_spec name m) as [<-|]; [|exact Ed]. f_equal. unfold content. rewrite Ed.
           apply overlay_next; exact Ho.
        -- destruct Hw as (text & Er & Ho & Et & Ed). exists (done ++ [(m, text)]). rewrite <- app_assoc. split; [exact Er|].
           rewrite put_files_app. cbn [put_files]. unfold put_file. rewrite String.eqb_sym in Ed.
           destruct (String.eqb_spec name m) as [<-|]; [|exact Ed]. rewrite Ed. f_equal.
           assert (L : length text <= off) by (apply (f_equal (@length byte)) in Et; rewrite skipn_length in Et; cbn in Et; lia).
           apply firstn_all2. exact L.
      * specialize (IH i v E). destruct (Nat.eqb_spec i (length before)); [congruence|exact IH].
    + specialize (Hsame Hw). destruct (Nat.eqb_spec i (length b)) as [->|N].
      * injection E as <-. destruct (Nat.eqb_spec (length b) (length before)); [contradiction|].
        destruct Hw as (O1 & O2). split; destruct A as [m text todo|m off k rest todo Hk Hs|m off todo]; cbn [w_open w_todo map fst] in *; auto.
        -- intros Hi. apply O1. right. exact Hi.
        -- intros ->. apply O1. left. reflexivity.
      * specialize (IH i v E). destruct (Nat.eqb_spec i (length before)) as [Ei|]; [|exact IH].
        destruct IH as (done & IH). exists done. destruct (w_open v) as [((m, off), rest)|]; rewrite Hsame; exact IH.
Qed.
End Alone.

(** Programs that save different files do not disturb each other, in any order of their actions and however their
    writes are cut: a file that only one program saves is at any moment as if that program were running alone, and
    after it has ended it is what that program saved last under the name. *)
Theorem C110_different_files : forall split d0 before r after name d ws,
  (forall r', In r' (before ++ after) -> ~ In name (map fst r')) ->
  together split d0 (map starting (before ++ r :: after)) d ws ->
  (exists d', during_writes d0 r d' /\ d name = d' name) /\
  (nth_error ws (length before) = Some (starting []) -> d name = put_files d0 r name).
Proof.
  intros split d0 before r after name d ws Ha H. destruct (alone_inv split d0 before r after name Ha d ws H) as (L & Inv).
  destruct (nth_error ws (length before)) as [w|] eqn:E.
  2:{ apply nth_error_None in E. rewrite L, app_length in E. cbn in E. lia. }
  specialize (Inv _ _ E). rewrite Nat.eqb_refl in Inv. destruct Inv as (done & Hw). split.
  - destruct (w_open w) as [((m, off), rest)|].
    + destruct Hw as (text & Er & Ho & _ & Ed). destruct (String.eqb_spec m name) as [->|N].
      * exists (put_file (put_files d0 done) name (firstn off text)). split.
        -- eapply dws_in; [exact Er|]. apply dw_part. exact Ho.
        -- rewrite Ed. unfold put_file. rewrite String.eqb_refl. reflexivity.
      * exists (put_files d0 done). split; [|exact Ed]. eapply dws_between; exact Er.
    + destruct Hw as (Er & Ed). exists (put_files d0 done). split; [|exact Ed]. eapply dws_between; exact Er.
  - intros E'. injection E' as ->. cbn in Hw. destruct Hw as (-> & Ed). rewrite app_nil_r. exact Ed.
Qed.

(** The hypotheses are met: the two sets of the second refutation, saved under the same name at the same time. *)
Lemma C110_hypotheses_met : exists name t1 t2 d ws c ts, saved_text name t1 /\ saved_text name t2 /\ t1 <> t2 /\
  together False (fun _ => None) (map starting [[(name, t1)]; [(name, t2)]]) d ws /\ Forall finished ws /\
  d name = Some c /\ read_token_set c = Ret ts.
Proof.
  exists (file_name (mixed_ex x62 x63)), (mixed_text x62 x63), (mixed_text x64 x65).
  assert (E1 : set_text (mixed_ex x62 x63) = Ret (mixed_text x62 x63)) by reflexivity.
  assert (E2 : set_text (mixed_ex x64 x65) = Ret (mixed_text x64 x65)) by reflexivity.
  assert (E3 : read_token_set (mixed_text x62 x63) = Ret (mixed_ex x62 x63)) by reflexivity.
  assert (S1 : saved_text (file_name (mixed_ex x62 x63)) (mixed_text x62 x63))
    by (exists (fun _ _ => []), (mkStats (mixed_ex x62 x63) 0 None 0 [] [] []); split; [reflexivity|left; exact E1]).
  assert (S2 : saved_text (file_name (mixed_ex x62 x63)) (mixed_text x64 x65))
    by (exists (fun _ _ => []), (mkStats (mixed_ex x64 x65) 0 None 0 [] [] []); split; [reflexivity|left; exact E2]).
  assert (El : length (mixed_text x62 x63) = length (mixed_text x64 x65)) by reflexivity.
  assert (L1 : 1 <= length (mixed_text x62 x63)) by (unfold mixed_text; rewrite app_length; cbn; lia).
  assert (Hne : mixed_text x62 x63 <> mixed_text x64 x65) by (intros K; apply app_inv_head in K; discriminate).
  revert S1 S2 E3 El L1 Hne. generalize (file_name (mixed_ex x62 x63)) as name.
  generalize (mixed_text x62 x63) as t1. generalize (mixed_text x64 x65) as t2. generalize (mixed_ex x62 x63) as ts.
  clear E1 E2. intros ts t2 t1 name S1 S2 E3 El L1 Hne.
  assert (P1 : forall d c, content (put_file d name c) name = c) by (intros; unfold content, put_file; rewrite String.eqb_refl; reflexivity).
  eexists _, [starting []; starting []], t1, ts. split; [exact S1|]. split; [exact S2|]. split; [exact Hne|].
  split; [|split; [|split; [|exact E3]]].
  - eapply (tg_step _ _ _ _ [starting []]); [|apply (act_close _ _ name (0 + length t2))].
    eapply (tg_step _ _ _ _ []); [|apply (act_close _ _ name (0 + length t1))]. cbn [app].
    eapply (tg_step _ _ _ _ []); [|apply (act_write_all _ _ name 0 t1); lia]. cbn [app].
    eapply (tg_step _ _ _ _ [_]); [|apply (act_write_all _ _ name 0 t2); lia]. cbn [app].
    eapply (tg_step _ _ _ _ [_]); [|apply act_create]. cbn [app].
    eapply (tg_step _ _ _ _ []); [|apply act_create]. cbn [app].
    apply tg_refl.
  - repeat constructor.
  - unfold put_file at 1. rewrite String.eqb_refl. f_equal. rewrite P1, P1. unfold overlay.
    cbn [firstn app Nat.add]. rewrite skipn_nil, app_nil_r, skipn_all2 by lia. apply app_nil_r.
Qed.
