(** * Whatever the reader accepts is a well-formed value of bounded depth. *)
From Coq Require Import String Sorted.
From Verif Require Import Base BaseLemmas Utf8 TokenSetModel JsonModel JsonText JsonProof PropFiles.
Local Open Scope list_scope.
Local Notation length := List.length.

Lemma read_int_cut s i r : read_int s = Some (i, r) -> s = i ++ r /\ (forall x, nstop x -> read_int (i ++ x) = Some (i, x)) /\
  match i with [] => False | b :: _ => is_digit b = true end.
Proof.
  unfold read_int. intros H. destruct (take_digits s) as (d, r') eqn:E. destruct d as [|b d]; [discriminate|].
  destruct (_ && _) eqn:Z; [discriminate|]. injection H as <- <-. apply take_digits_eq in E as (-> & H1 & _).
  split; [reflexivity|]. split; [|cbn [forallb] in H1; apply andb_prop in H1; apply H1].
  intros x Hx. rewrite (take_digits_app _ x H1) by (apply nstop_digit; exact Hx). rewrite Z. reflexivity.
Qed.

(** [x] may follow a fraction *)
Definition estop (x : bstr) : Prop := match x with [] => True | b :: _ => is_digit b = false /\ Byte.eqb b x2e = false end.

Lemma read_frac_cut s f r : read_frac s = Some (f, r) -> s = f ++ r /\ (forall x, estop x -> read_frac (f ++ x) = Some (f, x)) /\
  (f = [] \/ exists u, f = x2e :: u).
Proof.
  unfold read_frac. destruct s as [|b s].
  - intros [= <- <-]. split; [reflexivity|]. split; [|auto]. intros [|b x] Hx; [reflexivity|]. cbn [app]. destruct Hx as (_ & ->). reflexivity.
  - destruct (Byte.eqb b x2e) eqn:E.
    + apply Byte.byte_dec_bl in E. subst b. destruct (take_digits s) as (d, r') eqn:Ed. destruct d as [|c d]; [discriminate|].
      intros [= <- <-]. apply take_digits_eq in Ed as (-> & H1 & _). split; [reflexivity|]. split; [|eauto].
      intros x Hx. rewrite <- app_comm_cons. change (Byte.eqb x2e x2e) with true. cbv iota.
      rewrite (take_digits_app (c :: d) x H1); [reflexivity|]. destruct x; [exact I|apply Hx].
    + intros [= <- <-]. split; [reflexivity|]. split; [|auto]. intros [|c x] Hx; [reflexivity|]. cbn [app]. destruct Hx as (_ & ->). reflexivity.
Qed.

Lemma read_exp_cut s e r : read_exp s = Some (e, r) -> s = e ++ r /\ read_exp e = Some (e, []) /\
  (e = [] \/ exists b u, e = b :: u /\ (b = x65 \/ b = x45)).
Proof.
  unfold read_exp. destruct s as [|b s]; [intros [= <- <-]; auto|]. destruct (Byte.eqb b x65 || Byte.eqb b x45) eqn:E.
  2:{ intros [= <- <-]. auto. }
  assert (Hb : b = x65 \/ b = x45) by (apply orb_prop in E as [E|E]; apply Byte.byte_dec_bl in E; auto).
  destruct s as [|c s]; [discriminate|]. destruct (Byte.eqb c x2b || Byte.eqb c x2d) eqn:Ec.
  - destruct (take_digits s) as (d, r') eqn:Ed. destruct d as [|y d]; [discriminate|]. intros [= <- <-].
    apply take_digits_eq in Ed as (-> & H1 & _). split; [reflexivity|]. cbn [app]. rewrite E, Ec.
    pose proof (take_digits_app (y :: d) [] H1 I) as T. rewrite app_nil_r in T. rewrite T. split; [reflexivity|]. right. eauto.
  - destruct (take_digits (c :: s)) as (d, r') eqn:Ed. destruct d as [|y d]; [discriminate|]. intros [= <- <-].
    apply take_digits_eq in Ed as (Es & H1 & _). rewrite Es. split; [reflexivity|]. cbn [app]. rewrite E.
    cbn [app] in Es. injection Es as <- _. rewrite Ec.
    pose proof (take_digits_app (c :: d) [] H1 I) as T. rewrite app_nil_r in T. rewrite T. split; [reflexivity|]. right. eauto.
Qed.

Lemma read_number_wf s v r : read_number s = Some (v, r) -> jwf v /\ jdepth v = 0.
Proof.
  unfold read_number. destruct (read_sign s) as (sg, s1) eqn:Esg.
  destruct (read_int s1) as [(i, s2)|] eqn:Ei; [|discriminate].
  destruct (read_frac s2) as [(f, s3)|] eqn:Ef; [|discriminate].
  destruct (read_exp s3) as [(e, s4)|] eqn:Ee; [|discriminate].
  destruct (bstr_eqb (sg ++ f ++ e) [] && (digits_value i <? 2 ^ 64)%N) eqn:C; intros [= <- <-].
  - apply andb_prop in C as (_ & C). split; [|reflexivity]. constructor. rewrite N2Nat.id. apply N.ltb_lt. exact C.
  - split; [|reflexivity]. constructor.
    destruct (read_int_cut _ _ _ Ei) as (_ & Hi & Hh). destruct (read_frac_cut _ _ _ Ef) as (_ & Hf & Hfh).
    destruct (read_exp_cut _ _ _ Ee) as (_ & He & Heh).
    assert (Xe : estop e). { destruct Heh as [->|(b & u & -> & Hb)]; [exact I|]. destruct Hb as [->| ->]; split; reflexivity. }
    assert (Xi : read_int (i ++ f ++ e) = Some (i, f ++ e)).
    { destruct Hfh as [->|(u & ->)].
      - destruct Heh as [->|(b & w & -> & Hb)]; [apply Hi; exact I|]. cbn [app]. clear Hf He Hi. unfold read_int in *.
        destruct (take_digits s1) as (d, r') eqn:E. destruct d as [|c d]; [discriminate|].
        destruct (_ && _) eqn:Z; [discriminate|]. injection Ei as <- _. apply take_digits_eq in E as (_ & H1 & _).
        rewrite (take_digits_app _ (b :: w) H1) by (destruct Hb as [->| ->]; reflexivity). rewrite Z. reflexivity.
      - cbn [app]. clear Hf He Hi. unfold read_int in *.
        destruct (take_digits s1) as (d, r') eqn:E. destruct d as [|c d]; [discriminate|].
        destruct (_ && _) eqn:Z; [discriminate|]. injection Ei as <- _. apply take_digits_eq in E as (_ & H1 & _).
        rewrite (take_digits_app _ (x2e :: u ++ e) H1) by reflexivity. rewrite Z. reflexivity. }
    assert (Xs : read_sign (sg ++ i ++ f ++ e) = (sg, i ++ f ++ e)).
    { unfold read_sign in Esg. destruct s as [|b s].
      - injection Esg as <- <-. discriminate Ei.
      - destruct (Byte.eqb b x2d) eqn:Eb; injection Esg as <- <-; cbn [app].
        + unfold read_sign. rewrite Eb. reflexivity.
        + destruct i as [|c i]; [destruct Hh|]. cbn [app read_sign]. destruct (Byte.eqb c x2d) eqn:Ec; [|reflexivity].
          apply Byte.byte_dec_bl in Ec. subst c. discriminate Hh. }
    unfold read_number. rewrite Xs, Xi, (Hf _ Xe), He. rewrite C. reflexivity.
Qed.

Lemma fold_sorted l : forall m, StronglySorted (fun a b => bstr_cmp (fst a) (fst b) = Lt) m ->
  StronglySorted (fun a b => bstr_cmp (fst a) (fst b) = Lt) (fold_left (fun m kv => obj_set (fst kv) (snd kv) m) l m).
Proof. induction l as [|(k & v) l IH]; intros m Hm; [exact Hm|]. cbn [fold_left fst snd]. apply IH, obj_set_sorted, Hm. Qed.
Lemma fold_in (l : list (bstr * json)) kv : forall m, In kv (fold_left (fun m kv => obj_set (fst kv) (snd kv) m) l m) -> In kv l \/ In kv m.
Proof.
  induction l as [|(k & v) l IH]; intros m Hm; [auto|]. cbn [fold_left fst snd] in Hm. apply IH in Hm as [Hm|Hm]; [left; right; exact Hm|].
  apply obj_set_in in Hm as [->|Hm]; [left; left; reflexivity|auto].
Qed.

Lemma read_str_utf8 s t r : read_str s = Some (t, r) -> utf8_valid t = true.
Proof. unfold read_str. destruct (str_body s) as [(u & w)|]; [|discriminate]. destruct (utf8_valid u) eqn:E; [|discriminate]. intros [= <- <-]. exact E. Qed.

Lemma max_depth_lt l d : (forall n, In n l -> n < d) -> 1 <= d -> max_depth l < d.
Proof.
  intros H Hd. assert (G : max_depth l <= d - 1); [|lia]. apply max_depth_le. intros n Hn. specialize (H n Hn). lia.
Qed.

Lemma read_wf F :
  (forall d s v r, pvalue F d s = Some (v, r) -> 1 <= d -> jwf v /\ jdepth v < d) /\
  (forall d f s l r, pitems F d f s = Some (l, r) -> 1 <= d -> forall v, In v l -> jwf v /\ jdepth v < d) /\
  (forall d f s l r, pfields F d f s = Some (l, r) -> 1 <= d -> forall kv, In kv l -> utf8_valid (fst kv) = true /\ jwf (snd kv) /\ jdepth (snd kv) < d).
Proof.
  induction F as [|F (IHv & IHi & IHf)]; [repeat split; discriminate|]. split; [|split].
  - intros d s v r H Hd. cbn [pvalue] in H. destruct (skip_ws s) as [|b t]; [discriminate|].
    destruct (Byte.eqb b x6e); [destruct (strip _ _); [|discriminate]; injection H as <- <-; split; [constructor|exact Hd]|].
    destruct (Byte.eqb b x74); [destruct (strip _ _); [|discriminate]; injection H as <- <-; split; [constructor|exact Hd]|].
    destruct (Byte.eqb b x66); [destruct (strip _ _); [|discriminate]; injection H as <- <-; split; [constructor|exact Hd]|].
    destruct (Byte.eqb b quote).
    { destruct (read_str t) as [(u & w)|] eqn:E; [|discriminate]. injection H as <- <-. split; [|exact Hd]. constructor. apply utf8_valid_spec. eapply read_str_utf8, E. }
    destruct (Byte.eqb b x5b).
    { destruct d as [|[|d]]; try discriminate. destruct (pitems F (S d) true t) as [(l & w)|] eqn:E; [|discriminate]. injection H as <- <-.
      pose proof (IHi _ _ _ _ _ E (le_n_S _ _ (Nat.le_0_l d))) as G. cbn [fst]. split.
      - constructor. apply Forall_forall. intros v Hv. apply G, Hv.
      - cbn [jdepth]. apply -> Nat.succ_lt_mono. apply max_depth_lt; [|lia]. intros n Hn. apply in_map_iff in Hn as (v & <- & Hv). apply G, Hv. }
    destruct (Byte.eqb b x7b).
    { destruct d as [|[|d]]; try discriminate. destruct (pfields F (S d) true t) as [(l & w)|] eqn:E; [|discriminate]. injection H as <- <-.
      pose proof (IHf _ _ _ _ _ E (le_n_S _ _ (Nat.le_0_l d))) as G. cbn [fst].
      assert (G' : forall kv, In kv (fold_left (fun m kv => obj_set (fst kv) (snd kv) m) l []) -> utf8_valid (fst kv) = true /\ jwf (snd kv) /\ jdepth (snd kv) < S d).
      { intros kv Hkv. apply fold_in in Hkv as [Hkv|[]]. apply G, Hkv. }
      split.
      - constructor; [|apply fold_sorted; constructor]. apply Forall_forall. intros kv Hkv. destruct (G' kv Hkv) as (A & B & _).
        split; [apply utf8_valid_spec; exact A|exact B].
      - cbn [jdepth]. apply -> Nat.succ_lt_mono. apply max_depth_lt; [|lia]. intros n Hn. apply in_map_iff in Hn as (kv & <- & Hv). apply G', Hv. }
    destruct (_ || _); [|discriminate]. destruct (read_number_wf _ _ _ H) as (W & D). split; [exact W|lia].
  - intros d f s l r H Hd. cbn [pitems] in H. destruct (skip_ws s) as [|b t]; [discriminate|].
    destruct (Byte.eqb b x5d); [injection H as <- <-; intros v []|]. destruct (f || _); [|discriminate].
    destruct (pvalue F d _) as [(v & r')|] eqn:E; [|discriminate]. destruct (pitems F d false r') as [(l' & w)|] eqn:E'; [|discriminate].
    injection H as <- <-. intros x [<-|Hx]; [eapply IHv; eassumption|eapply IHi; eassumption].
  - intros d f s l r H Hd. cbn [pfields] in H. destruct (skip_ws s) as [|b t]; [discriminate|].
    destruct (Byte.eqb b x7d); [injection H as <- <-; intros v []|]. destruct (f || _); [|discriminate].
    destruct (skip_ws (if f then _ else _)) as [|q r1]; [discriminate|]. destruct (Byte.eqb q quote); [|discriminate].
    destruct (read_str r1) as [(k & r2)|] eqn:Es; [|discriminate]. destruct (skip_ws r2) as [|c r3]; [discriminate|].
    destruct (Byte.eqb c x3a); [|discriminate].
    destruct (pvalue F d r3) as [(v & r')|] eqn:E; [|discriminate]. destruct (pfields F d false r') as [(l' & w)|] eqn:E'; [|discriminate].
    injection H as <- <-. intros x [<-|Hx]; [|eapply IHf; eassumption]. cbn [fst snd]. split; [eapply read_str_utf8, Es|]. eapply IHv; eassumption.
Qed.

Theorem parse_json_wf text v : parse_json text = Some v -> jwf v /\ jdepth v <= 127.
Proof.
  unfold parse_json. destruct (pvalue _ 128 text) as [(v' & r)|] eqn:E; [|discriminate]. destruct (skip_ws r); [|discriminate].
  intros [= <-]. destruct (proj1 (read_wf _) _ _ _ _ E ltac:(lia)) as (W & D). split; [exact W|lia].
Qed.
