(** * C91: pretty.py keeps the token set. *)
From Coq Require Import String ZArith Sorted.
From Verif Require Import Base BaseLemmas Utf8 TokenSetModel TokenizerModel TokSpec SortLemmas JsonModel JsonText JsonProof PropJson OptimizeProof3 CommandsModel PropFiles
  JsonRead ProcessingModel PrettyModel.
Local Open Scope list_scope.
Local Notation length := List.length.

(** ** Texts of a value: white space may stand between any two parts *)
Definition spaces (w : bstr) : Prop := forallb is_ws w = true.

Inductive written : json -> bstr -> Prop :=
| w_scalar v : scalar v = true -> written v (show v)
| w_arr l s : witems true l s -> written (JArr l) (x5b :: s ++ [x5d])
| w_obj fs s : wfields true fs s -> written (JObj fs) (x7b :: s ++ [x7d])
with witems : bool -> list json -> bstr -> Prop :=
| wi_nil f w : spaces w -> witems f [] w
| wi_cons f v l w1 w2 t s : spaces w1 -> spaces w2 -> written v t -> witems false l s ->
    witems f (v :: l) (w1 ++ (if f then [] else [x2c]) ++ w2 ++ t ++ s)
with wfields : bool -> list (bstr * json) -> bstr -> Prop :=
| wf_nil f w : spaces w -> wfields f [] w
| wf_cons f k v l w1 w2 w3 w4 t s : spaces w1 -> spaces w2 -> spaces w3 -> spaces w4 -> written v t -> wfields false l s ->
    wfields f ((k, v) :: l) (w1 ++ (if f then [] else [x2c]) ++ w2 ++ show_str k ++ w3 ++ [x3a] ++ w4 ++ t ++ s).

Scheme written_ind2 := Minimality for written Sort Prop
with witems_ind2 := Minimality for witems Sort Prop
with wfields_ind2 := Minimality for wfields Sort Prop.
Combined Scheme written_mut from written_ind2, witems_ind2, wfields_ind2.

Lemma spaces_app a b : spaces a -> spaces b -> spaces (a ++ b).
Proof. unfold spaces. intros H1 H2. rewrite forallb_app, H1, H2. reflexivity. Qed.
Lemma skip_spaces w s : spaces w -> skip_ws (w ++ s) = skip_ws s.
Proof.
  unfold spaces. induction w as [|b w IH]; intros H; [reflexivity|]. cbn [forallb] in H. apply andb_prop in H as [H1 H2].
  cbn [app skip_ws]. rewrite H1. apply IH, H2.
Qed.
Lemma pvalue_spaces F d w s : spaces w -> pvalue F d (w ++ s) = pvalue F d s.
Proof. intros H. destruct F as [|F]; [reflexivity|]. cbn [pvalue]. rewrite skip_spaces by exact H. reflexivity. Qed.
Lemma pitems_spaces F d f w s : spaces w -> pitems F d f (w ++ s) = pitems F d f s.
Proof. intros H. destruct F as [|F]; [reflexivity|]. cbn [pitems]. rewrite skip_spaces by exact H. reflexivity. Qed.
Lemma pfields_spaces F d f w s : spaces w -> pfields F d f (w ++ s) = pfields F d f s.
Proof. intros H. destruct F as [|F]; [reflexivity|]. cbn [pfields]. rewrite skip_spaces by exact H. reflexivity. Qed.

Lemma nstop_spaces w c r : spaces w -> nstop (c :: r) -> nstop (w ++ c :: r).
Proof.
  intros Hw Hc. destruct w as [|b w]; [exact Hc|]. unfold spaces in Hw. cbn [forallb] in Hw. apply andb_prop in Hw as [Hw _].
  cbn [app nstop]. destruct b; try discriminate Hw; repeat split.
Qed.

Lemma nstop_witems l s r : witems false l s -> nstop (s ++ x5d :: r).
Proof.
  intros H. inversion H; subst.
  - apply nstop_spaces; [assumption|]. repeat split.
  - rewrite <- !app_assoc. apply nstop_spaces; [assumption|]. repeat split.
Qed.
Lemma nstop_wfields l s r : wfields false l s -> nstop (s ++ x7d :: r).
Proof.
  intros H. inversion H; subst.
  - apply nstop_spaces; [assumption|]. repeat split.
  - rewrite <- !app_assoc. apply nstop_spaces; [assumption|]. repeat split.
Qed.

Lemma written_head v t : written v t -> jwf v -> exists b u, t = b :: u /\ is_ws b = false /\ Byte.eqb b x5d = false.
Proof.
  intros H W. destruct H.
  - apply show_head, W.
  - eexists _, _. split; [reflexivity|]. split; reflexivity.
  - eexists _, _. split; [reflexivity|]. split; reflexivity.
Qed.

Lemma read_written :
  (forall v t, written v t -> jwf v -> forall F d r, 2 * length t + 1 <= F -> jdepth v < d -> nstop r -> pvalue F d (t ++ r) = Some (v, r)) /\
  (forall f l s, witems f l s -> Forall jwf l -> forall F d r, 2 * length s + 2 <= F -> max_depth (map jdepth l) < d ->
     pitems F d f (s ++ x5d :: r) = Some (l, r)) /\
  (forall f l s, wfields f l s -> Forall (fun kv => utf8 (fst kv) /\ jwf (snd kv)) l -> forall F d r, 2 * length s + 2 <= F ->
     max_depth (map (fun kv => jdepth (snd kv)) l) < d -> pfields F d f (s ++ x7d :: r) = Some (l, r)).
Proof.
  apply written_mut.
  - intros v _ W. exact (pvalue_show v W).
  - intros l s _ IH W F d r HF Hd _. inversion W as [| | | | |l' Hl|]; subst. cbn [jdepth] in Hd. destruct d as [|[|d]]; try lia.
    cbn [length] in HF. rewrite app_length in HF. cbn [length] in HF. destruct F as [|F]; [lia|]. cbn [app]. rewrite <- app_assoc. cbn [app].
    cbn [pvalue skip_ws is_ws]. change (is_ws x5b) with false. cbv iota beta.
    change (Byte.eqb x5b x6e) with false. change (Byte.eqb x5b x74) with false.
    change (Byte.eqb x5b x66) with false. change (Byte.eqb x5b quote) with false.
    change (Byte.eqb x5b x5b) with true. cbv iota. rewrite IH; [reflexivity|exact Hl|lia|lia].
  - intros fs s _ IH W F d r HF Hd _. inversion W as [| | | | | |fs' Hl Hs]; subst. cbn [jdepth] in Hd. destruct d as [|[|d]]; try lia.
    cbn [length] in HF. rewrite app_length in HF. cbn [length] in HF. destruct F as [|F]; [lia|]. cbn [app]. rewrite <- app_assoc. cbn [app].
    cbn [pvalue skip_ws is_ws]. change (is_ws x7b) with false. cbv iota beta.
    change (Byte.eqb x7b x6e) with false. change (Byte.eqb x7b x74) with false.
    change (Byte.eqb x7b x66) with false. change (Byte.eqb x7b quote) with false.
    change (Byte.eqb x7b x5b) with false. change (Byte.eqb x7b x7b) with true. cbv iota.
    rewrite IH; [|exact Hl|lia|lia]. cbn [option_map fst snd]. rewrite fold_obj_set by exact Hs. reflexivity.
  - intros f w Hw _ F d r HF _. rewrite pitems_spaces by exact Hw. destruct F as [|F]; [lia|]. reflexivity.
  - intros f v l w1 w2 t s H1 H2 Ht IHt Hs IHs Hl F d r HF Hd. inversion Hl as [|? ? Hv Hl']; subst. cbn [map max_depth fold_right] in Hd.
    fold (max_depth (map jdepth l)) in Hd.
    destruct (written_head v t Ht Hv) as (b & u & Et & Hb1 & Hb2). rewrite !app_length in HF.
    assert (L : 1 <= length t) by (rewrite Et; cbn; lia).
    destruct F as [|F]; [lia|]. rewrite <- !app_assoc. rewrite pitems_spaces by exact H1.
    assert (R : pvalue F d (t ++ s ++ x5d :: r) = Some (v, s ++ x5d :: r)).
    { apply IHt; [exact Hv|destruct f; cbn [length] in HF; lia|lia|]. eapply nstop_witems, Hs. }
    assert (I : pitems F d false (s ++ x5d :: r) = Some (l, r)) by (apply IHs; [exact Hl'|lia|lia]).
    destruct f.
    + cbn [app]. rewrite pitems_spaces by exact H2. rewrite Et in R |- *. cbn [app] in R |- *. cbn [pitems skip_ws]. rewrite Hb1, Hb2. cbn [orb].
      rewrite R, I. reflexivity.
    + cbn [app pitems]. change (skip_ws (x2c :: w2 ++ t ++ s ++ x5d :: r)) with (x2c :: w2 ++ t ++ s ++ x5d :: r). cbv beta iota.
      change (Byte.eqb x2c x5d) with false. change (Byte.eqb x2c x2c) with true. cbn [orb]. rewrite pvalue_spaces by exact H2.
      rewrite R, I. reflexivity.
  - intros f w Hw _ F d r HF _. rewrite pfields_spaces by exact Hw. destruct F as [|F]; [lia|]. reflexivity.
  - intros f k v l w1 w2 w3 w4 t s H1 H2 H3 H4 Ht IHt Hs IHs Hl F d r HF Hd. inversion Hl as [|? ? [Hk Hv] Hl']; subst. cbn [fst snd] in Hk, Hv.
    cbn [map max_depth fold_right snd] in Hd. fold (max_depth (map (fun kv : bstr * json => jdepth (snd kv)) l)) in Hd.
    rewrite !app_length in HF. cbn [length] in HF. destruct F as [|F]; [lia|]. rewrite <- !app_assoc. rewrite pfields_spaces by exact H1.
    assert (R : pvalue F d (t ++ s ++ x7d :: r) = Some (v, s ++ x7d :: r)).
    { apply IHt; [exact Hv|destruct f; cbn [length] in HF; lia|lia|]. eapply nstop_wfields, Hs. }
    assert (I : pfields F d false (s ++ x7d :: r) = Some (l, r)) by (apply IHs; [exact Hl'|lia|lia]).
    set (rest := t ++ s ++ x7d :: r) in *.
    assert (K : read_str (flat_map escape k ++ [quote] ++ w3 ++ [x3a] ++ w4 ++ rest) = Some (k, w3 ++ x3a :: w4 ++ rest)).
    { exact (read_str_show k (w3 ++ x3a :: w4 ++ rest) Hk). }
    unfold show_str. rewrite <- !app_assoc. set (body := flat_map escape k ++ [quote] ++ w3 ++ [x3a] ++ w4 ++ rest) in *.
    change ([quote] ++ body) with (quote :: body).
    assert (E3 : skip_ws (w3 ++ x3a :: w4 ++ rest) = x3a :: w4 ++ rest) by (rewrite skip_spaces by exact H3; reflexivity).
    destruct f.
    + cbn [app]. rewrite pfields_spaces by exact H2. cbn [pfields].
      change (skip_ws (quote :: body)) with (quote :: body). cbv beta iota. change (Byte.eqb quote x7d) with false. cbn [orb]. cbv iota.
      change (skip_ws (quote :: body)) with (quote :: body). cbv beta iota. change (Byte.eqb quote quote) with true. cbv iota. rewrite K, E3.
      change (Byte.eqb x3a x3a) with true. cbv iota. rewrite pvalue_spaces by exact H4. rewrite R, I. reflexivity.
    + cbn [app pfields]. change (skip_ws (x2c :: w2 ++ quote :: body)) with (x2c :: w2 ++ quote :: body). cbv beta iota.
      change (Byte.eqb x2c x7d) with false. change (Byte.eqb x2c x2c) with true. cbn [orb]. cbv iota.
      rewrite skip_spaces by exact H2.
      change (skip_ws (quote :: body)) with (quote :: body). cbv beta iota. change (Byte.eqb quote quote) with true. cbv iota. rewrite K, E3.
      change (Byte.eqb x3a x3a) with true. cbv iota. rewrite pvalue_spaces by exact H4. rewrite R, I. reflexivity.
Qed.

Lemma parse_written v t w : jwf v -> jdepth v <= 127 -> written v t -> spaces w -> parse_json (t ++ w) = Some v.
Proof.
  intros W D H Hw. unfold parse_json. rewrite (proj1 read_written v t H W).
  - rewrite <- (app_nil_r w), skip_spaces by exact Hw. reflexivity.
  - rewrite app_length. lia.
  - lia.
  - destruct w as [|b w]; [exact I|]. unfold spaces in Hw. cbn [forallb] in Hw. apply andb_prop in Hw as [Hw _]. destruct b; try discriminate Hw; repeat split.
Qed.

(** ** [dumps] *)
Lemma dumps_written v : written v (dumps v).
Proof.
  induction v using json_ind2; try (apply w_scalar; reflexivity).
  - cbn [dumps]. change (lit "[") with [x5b]. cbn [app]. apply w_arr.
    match goal with |- witems _ _ (?f true l) => set (go := f) end.
    assert (G : forall f, witems f l (go f l)); [|apply G].
    induction H as [|x r Hx _ IH]; intros f; [apply wi_nil; reflexivity|].
    cbn [go]. fold go. destruct f.
    + exact (wi_cons true x r [] [] _ _ eq_refl eq_refl Hx (IH false)).
    + change (lit ", ") with ([x2c] ++ [x20]). rewrite <- app_assoc. exact (wi_cons false x r [] [x20] _ _ eq_refl eq_refl Hx (IH false)).
  - cbn [dumps]. change (lit "{") with [x7b]. cbn [app]. apply w_obj.
    match goal with |- wfields _ _ (?f true fs) => set (go := f) end.
    assert (G : forall f, wfields f fs (go f fs)); [|apply G].
    induction H as [|(k & x) r Hx _ IH]; intros f; [apply wf_nil; reflexivity|].
    cbn [go]. fold go. cbn [snd] in Hx. change (lit ": ") with ([x3a] ++ [x20]). rewrite <- !app_assoc. destruct f.
    + exact (wf_cons true k x r [] [] [] [x20] _ _ eq_refl eq_refl eq_refl eq_refl Hx (IH false)).
    + change (lit ", ") with ([x2c] ++ [x20]). rewrite <- app_assoc.
      exact (wf_cons false k x r [] [x20] [] [x20] _ _ eq_refl eq_refl eq_refl eq_refl Hx (IH false)).
Qed.

(** ** The lines *)
Definition pre (w : bstr) (ls : list bstr) : bstr := flat_map (fun l => w ++ l) ls.
Lemma pre_app w a b : pre w (a ++ b) = pre w a ++ pre w b.
Proof. apply flat_map_app. Qed.
Lemma pre_indent w ls : pre w (map (fun s => lit "  " ++ s) ls) = pre (w ++ lit "  ") ls.
Proof. induction ls as [|l ls IH]; [reflexivity|]. cbn [map]. unfold pre in *. cbn [flat_map]. rewrite IH, <- !app_assoc. reflexivity. Qed.

Lemma item_lines_some subs : forall out l, exists out' l', item_lines (out, Some l) subs = (out', Some l') /\
  out' ++ [l'] = out ++ [l] ++ map (fun s => lit "  " ++ s) subs.
Proof.
  induction subs as [|s subs IH]; intros out l; [exists out, l; split; [reflexivity|rewrite app_nil_r; reflexivity]|].
  unfold item_lines in *. cbn [fold_left fst snd]. destruct (IH (out ++ [l]) (lit "  " ++ s)) as (o & l' & E & H). exists o, l'. split; [exact E|].
  rewrite H, <- app_assoc. reflexivity.
Qed.
Lemma item_lines_none out s subs : exists out' l', item_lines (out, None) (s :: subs) = (out', Some l') /\
  out' ++ [l'] = out ++ map (fun s => lit "  " ++ s) (s :: subs).
Proof. exact (item_lines_some subs out (lit "  " ++ s)). Qed.
Lemma field_lines_none out k s subs : exists out' l', field_lines (out, None) k (s :: subs) = (out', Some l') /\
  out' ++ [l'] = out ++ [lit "  " ++ k ++ lit ": " ++ s] ++ map (fun s => lit "  " ++ s) subs.
Proof.
  unfold field_lines. cbn [fold_left fst snd].
  assert (G : forall subs out l, exists out' l', fold_left (fun g s => match snd g with
                        | None => (fst g, Some (lit "  " ++ k ++ lit ": " ++ s))
                        | Some l => (fst g ++ [l], Some (lit "  " ++ s))
                        end) subs (out, Some l) = (out', Some l') /\ out' ++ [l'] = out ++ [l] ++ map (fun s => lit "  " ++ s) subs); [|apply G].
  clear. induction subs as [|s subs IH]; intros out l; [exists out, l; split; [reflexivity|rewrite app_nil_r; reflexivity]|].
  cbn [fold_left fst snd]. destruct (IH (out ++ [l]) (lit "  " ++ s)) as (o & l' & E & H). exists o, l'. split; [exact E|].
  rewrite H, <- app_assoc. reflexivity.
Qed.

Lemma serialize_written v : forall m w, spaces w -> exists t, pre w (serialize v m) = w ++ t /\ written v t.
Proof.
  assert (Hsub : forall x m w, (forall m w, spaces w -> exists t, pre w (serialize x m) = w ++ t /\ written x t) -> spaces w ->
    exists s subs t, serialize x m = s :: subs /\ t = s ++ pre w subs /\ written x t).
  { intros x m w Hx Hw. destruct (serialize x m) as [|s subs] eqn:E.
    - exfalso. destruct (Hx m [] eq_refl) as (t & Et & Ht). rewrite E in Et. cbn in Et. subst t. inversion Ht as [u Hv Ev Eu | |]. clear Ev. destruct x; cbn in Eu, Hv; try discriminate.
      + destruct b; discriminate.
      + destruct (show_nat_digits n) as [_ Hn]. congruence.
      + subst. destruct (Hx m [x20] eq_refl) as (t & Et & Ht'). rewrite E in Et. discriminate Et.
    - destruct (Hx m w Hw) as (t & Et & Ht). rewrite E in Et. cbn [pre flat_map] in Et. rewrite <- app_assoc in Et. apply app_inv_head in Et. subst t. eauto 8. }
  induction v using json_ind2; intros m w Hw;
    try (cbn [serialize scalar]; rewrite orb_true_r; eexists; split; [cbn [pre flat_map]; rewrite app_nil_r; reflexivity|apply w_scalar; reflexivity]).
  - cbn [serialize]. destruct (_ || _).
    { eexists. split; [cbn [pre flat_map]; rewrite app_nil_r; reflexivity|apply dumps_written]. }
    match goal with |- context [finish (?f _ l) _] => set (go := f) end.
    assert (G : forall l, Forall (fun v => forall m w, spaces w -> exists t, pre w (serialize v m) = w ++ t /\ written v t) l -> forall out last,
      exists s, pre w (finish (go (out, last) l) (lit "]")) = pre w (out ++ match last with Some x => [x] | None => [] end) ++ s ++ lit "]" /\
        witems (match last with None => true | _ => false end) l s).
    { clear l H. induction 1 as [|x r Hx Hr IH]; intros out last.
      - exists w. cbn [go]. split; [|apply wi_nil, Hw]. unfold finish. cbn [fst snd]. destruct last as [x|].
        + change [x; lit "]"] with ([x] ++ [lit "]"]). rewrite app_assoc, (pre_app w (out ++ [x])). cbn [pre flat_map]. rewrite app_nil_r. reflexivity.
        + rewrite app_nil_r, pre_app. cbn [pre flat_map]. rewrite app_nil_r. reflexivity.
      - cbn [go]. fold go.
        destruct (Hsub x (m - 2)%Z (w ++ lit "  ") Hx) as (s0 & subs & t & Es & Et & Ht); [apply spaces_app; [exact Hw|reflexivity]|]. rewrite Es.
        destruct last as [y|]; cbn [comma fst snd].
        + destruct (item_lines_none (out ++ [y ++ lit ","]) s0 subs) as (o & l' & E & HH). rewrite E.
          destruct (IH o (Some l')) as (s & E2 & Hi). rewrite E2, HH. clear E2 E HH IH.
          exists ([] ++ [x2c] ++ (w ++ lit "  ") ++ t ++ s). split; [|refine (wi_cons false x r [] (w ++ lit "  ") t s eq_refl _ Ht Hi); apply spaces_app; [exact Hw|reflexivity]].
          rewrite !pre_app, pre_indent, Et. cbn [pre flat_map]. rewrite !app_nil_r, <- !app_assoc. reflexivity.
        + destruct (item_lines_none out s0 subs) as (o & l' & E & HH). rewrite E.
          destruct (IH o (Some l')) as (s & E2 & Hi). rewrite E2, HH. clear E2 E HH IH.
          exists ([] ++ [] ++ (w ++ lit "  ") ++ t ++ s). split; [|refine (wi_cons true x r [] (w ++ lit "  ") t s eq_refl _ Ht Hi); apply spaces_app; [exact Hw|reflexivity]].
          rewrite app_nil_r, !pre_app, pre_indent, Et. cbn [pre flat_map app]. rewrite <- !app_assoc. reflexivity. }
    destruct (G l H [lit "["] None) as (s & E & Hi). rewrite E. exists (x5b :: s ++ [x5d]). split; [|apply w_arr, Hi].
    cbn [app pre flat_map]. rewrite app_nil_r, <- !app_assoc. reflexivity.
  - cbn [serialize]. destruct (_ || _).
    { eexists. split; [cbn [pre flat_map]; rewrite app_nil_r; reflexivity|apply dumps_written]. }
    match goal with |- context [finish (?f _ fs) _] => set (go := f) end.
    assert (G : forall l, Forall (fun kv => forall m w, spaces w -> exists t, pre w (serialize (snd kv) m) = w ++ t /\ written (snd kv) t) l -> forall out last,
      exists s, pre w (finish (go (out, last) l) (lit "}")) = pre w (out ++ match last with Some x => [x] | None => [] end) ++ s ++ lit "}" /\
        wfields (match last with None => true | _ => false end) l s).
    { clear fs H. induction 1 as [|(k & x) r Hx Hr IH]; intros out last.
      - exists w. cbn [go]. split; [|apply wf_nil, Hw]. unfold finish. cbn [fst snd]. destruct last as [x|].
        + change [x; lit "}"] with ([x] ++ [lit "}"]). rewrite app_assoc, (pre_app w (out ++ [x])). cbn [pre flat_map]. rewrite app_nil_r. reflexivity.
        + rewrite app_nil_r, pre_app. cbn [pre flat_map]. rewrite app_nil_r. reflexivity.
      - cbn [go]. fold go. cbn [snd] in Hx.
        assert (Hline : forall out1 : list bstr, exists (o : list bstr) (l' t : bstr), (if (len (lit "  " ++ show_str k ++ lit ": " ++ dumps x) <=? m + 1)%Z
             then (fst (out1, @None bstr), Some (lit "  " ++ show_str k ++ lit ": " ++ dumps x))
             else field_lines (out1, None) (show_str k) (serialize x (m - 2))) = (o, Some l') /\ written x t /\
            pre w (o ++ [l']) = pre w out1 ++ (w ++ lit "  ") ++ show_str k ++ lit ": " ++ t).
        { intros out1. destruct (_ <=? _)%Z.
          - exists out1, (lit "  " ++ show_str k ++ lit ": " ++ dumps x), (dumps x). split; [reflexivity|]. split; [apply dumps_written|].
            rewrite pre_app. f_equal. cbn [pre flat_map]. rewrite app_nil_r, <- !app_assoc. reflexivity.
          - destruct (Hsub x (m - 2)%Z (w ++ lit "  ") Hx) as (s0 & subs & t & Es & Et & Ht); [apply spaces_app; [exact Hw|reflexivity]|]. rewrite Es.
            destruct (field_lines_none out1 (show_str k) s0 subs) as (o & l' & E & HH). exists o, l', t. split; [exact E|]. split; [exact Ht|].
            etransitivity; [apply (f_equal (pre w) HH)|]. rewrite !pre_app, pre_indent, Et. f_equal. cbn [pre flat_map]. rewrite app_nil_r, <- !app_assoc. reflexivity. }
        destruct last as [y|]; cbn [comma fst snd].
        + destruct (Hline (out ++ [y ++ lit ","])) as (o & l' & t & E & Ht & HH). cbn [fst] in E. match goal with |- context [go ?g r] => replace g with (o, Some l') by (symmetry; exact E) end.
          destruct (IH o (Some l')) as (s & E2 & Hi). assert (E3 := eq_trans E2 (f_equal (fun z => z ++ s ++ lit "}") HH)). clear E E2 HH IH.
          exists ([] ++ [x2c] ++ (w ++ lit "  ") ++ show_str k ++ [] ++ [x3a] ++ [x20] ++ t ++ s).
          split; [etransitivity; [exact E3|]|refine (wf_cons false k x r [] (w ++ lit "  ") [] [x20] t s eq_refl _ eq_refl eq_refl Ht Hi); apply spaces_app; [exact Hw|reflexivity]].
          change (lit ": ") with ([x3a] ++ [x20]). rewrite !pre_app. cbn [pre flat_map]. rewrite !app_nil_r, <- !app_assoc. reflexivity.
        + destruct (Hline out) as (o & l' & t & E & Ht & HH). cbn [fst] in E. match goal with |- context [go ?g r] => replace g with (o, Some l') by (symmetry; exact E) end.
          destruct (IH o (Some l')) as (s & E2 & Hi). assert (E3 := eq_trans E2 (f_equal (fun z => z ++ s ++ lit "}") HH)). clear E E2 HH IH.
          exists ([] ++ [] ++ (w ++ lit "  ") ++ show_str k ++ [] ++ [x3a] ++ [x20] ++ t ++ s).
          split; [etransitivity; [exact E3|]|refine (wf_cons true k x r [] (w ++ lit "  ") [] [x20] t s eq_refl _ eq_refl eq_refl Ht Hi); apply spaces_app; [exact Hw|reflexivity]].
          change (lit ": ") with ([x3a] ++ [x20]). rewrite app_nil_r, <- !app_assoc. reflexivity. }
    destruct (G fs H [lit "{"] None) as (s & E & Hi). rewrite E. exists (x7b :: s ++ [x7d]). split; [|apply w_obj, Hi].
    cbn [app pre flat_map]. rewrite app_nil_r, <- !app_assoc. reflexivity.
Qed.

Lemma save_json_written v : exists t, save_json v = t ++ [x0a] /\ written v t.
Proof.
  destruct (serialize_written v 80 [x0a] eq_refl) as (t & E & Ht). exists t. split; [|exact Ht].
  unfold save_json. assert (G : forall ls, x0a :: flat_map (fun l => l ++ [x0a]) ls = pre [x0a] ls ++ [x0a]).
  { induction ls as [|l ls IH]; [reflexivity|]. cbn [flat_map]. change (pre [x0a] (l :: ls)) with (x0a :: l ++ pre [x0a] ls). cbn [app]. rewrite <- !app_assoc, <- IH. reflexivity. }
  pose proof (G (serialize v 80)) as G1. rewrite E in G1. injection G1 as G1. exact G1.
Qed.

(** ** Numbers that are not natural *)

(** Their texts in a value *)
Fixpoint real_texts (v : json) : list bstr :=
  match v with
  | JReal t => [t]
  | JArr l => flat_map real_texts l
  | JObj fs => flat_map (fun kv => real_texts (snd kv)) fs
  | _ => []
  end.

(** What is asked of [repr(float(text))] for the floating point numbers of a value: it is
    the text of such a number. *)
Definition floats_shown (renumber : bstr -> bstr) (v : json) : Prop := forall t, In t (real_texts v) -> integer_text t = false ->
  number_text (renumber t) /\ integer_text (renumber t) = false.

Section Reals.
Variable renumber : bstr -> bstr.
Local Notation reals := (reals renumber).

Lemma reals_depth v : jdepth (reals v) = jdepth v.
Proof.
  induction v using json_ind2; try reflexivity; cbn [PrettyModel.reals jdepth].
  - unfold renumbered. destruct (bstr_eqb _ _); [reflexivity|]. destruct (integer_text _); reflexivity.
  - f_equal. f_equal. rewrite map_map. apply map_ext_in. rewrite Forall_forall in H. exact H.
  - f_equal. f_equal. rewrite map_map. apply map_ext_in. rewrite Forall_forall in H. exact H.
Qed.

Lemma reals_sorted fs : StronglySorted (fun a b : bstr * json => bstr_cmp (fst a) (fst b) = Lt) fs ->
  StronglySorted (fun a b : bstr * json => bstr_cmp (fst a) (fst b) = Lt) (map (fun kv => (fst kv, reals (snd kv))) fs).
Proof.
  induction 1 as [|a fs _ IH Ha]; [constructor|]. cbn [map]. constructor; [exact IH|]. rewrite Forall_forall in *. intros b Hb.
  apply in_map_iff in Hb as (c & <- & Hc). exact (Ha c Hc).
Qed.

Lemma reals_jwf v : jwf v -> floats_shown renumber v -> jwf (reals v).
Proof.
  induction v using json_ind2; intros W Hn; inversion W; subst; cbn [PrettyModel.reals]; try (constructor; assumption).
  - unfold renumbered. destruct (bstr_eqb _ _); [constructor; reflexivity|]. destruct (integer_text t) eqn:E; constructor; [assumption|].
    apply (Hn t); [left; reflexivity|exact E].
  - constructor. rewrite Forall_forall in *. intros x Hx. apply in_map_iff in Hx as (y & <- & Hy). apply H; auto.
    intros t Ht. apply Hn. cbn [real_texts]. apply in_flat_map. eauto.
  - constructor; [|apply reals_sorted; assumption]. rewrite Forall_forall in *. intros x Hx. apply in_map_iff in Hx as (y & <- & Hy). cbn [fst snd].
    destruct (H1 y Hy). split; [assumption|]. apply H; [assumption|assumption|]. intros t Ht. apply Hn. cbn [real_texts]. apply in_flat_map. eauto.
Qed.

Lemma pretty_read text v : parse_json text = Some v -> floats_shown renumber v ->
  exists out, pretty renumber text = Some out /\ parse_json out = Some (reals v) /\ exists t, out = t ++ [x0a] /\ written (reals v) t.
Proof.
  intros E Hn. destruct (parse_json_wf _ _ E) as (W & D). unfold pretty. rewrite E. destruct (save_json_written (reals v)) as (t & Et & Ht). exists (save_json (reals v)). split; [reflexivity|].
  split; [|eauto]. rewrite Et. apply parse_written; [apply reals_jwf; [exact W|exact Hn]|rewrite reals_depth; exact D|exact Ht|reflexivity].
Qed.
End Reals.

(** Values without such numbers are not changed. *)
Fixpoint no_reals (v : json) : bool :=
  match v with
  | JReal _ => false
  | JArr l => forallb no_reals l
  | JObj fs => forallb (fun kv => no_reals (snd kv)) fs
  | _ => true
  end.
Lemma reals_id renumber v : no_reals v = true -> reals renumber v = v.
Proof.
  induction v using json_ind2; intros E; try reflexivity; [discriminate| |]; cbn [no_reals reals] in *; f_equal; rewrite forallb_forall in E; rewrite Forall_forall in H.
  - rewrite <- (map_id l) at 2. apply map_ext_in. auto.
  - rewrite <- (map_id fs) at 2. apply map_ext_in. intros (k & x) Hx. cbn [fst snd]. f_equal. exact (H _ Hx (E _ Hx)).
Qed.

(** ** C91 *)

(** Whatever the file holds: if it has no other numbers than natural ones, exactly the same value
    is read from the new file; and the script leaves its own output alone. *)
Theorem C91_content_kept : forall renumber text v, parse_json text = Some v -> no_reals v = true ->
  exists out, pretty renumber text = Some out /\ parse_json out = Some v.
Proof.
  intros renumber text v E R. destruct (parse_json_wf _ _ E) as (W & D). unfold pretty. rewrite E, (reals_id renumber v R). destruct (save_json_written v) as (t & Et & Ht).
  exists (save_json v). split; [reflexivity|]. rewrite Et. apply parse_written; try assumption. reflexivity.
Qed.

Theorem C91_own_output_unchanged : forall renumber text v out,
  parse_json text = Some v -> floats_shown renumber v ->
  (forall t, In t (real_texts v) -> integer_text t = false -> renumber (renumber t) = renumber t) ->
  pretty renumber text = Some out -> pretty renumber out = Some out.
Proof.
  intros renumber text v out E Hn Hi P.
  destruct (pretty_read renumber text v E Hn) as (out' & P' & R & _). rewrite P in P'. injection P' as <-.
  unfold pretty in P |- *. rewrite E in P. injection P as P. rewrite R. f_equal. rewrite <- P. f_equal.
  clear - Hi Hn. induction v using json_ind2; try reflexivity; cbn [reals].
  - unfold renumbered. destruct (bstr_eqb t (lit "-0")) eqn:E0; [reflexivity|]. destruct (integer_text t) eqn:E1.
    + cbn [reals]. unfold renumbered. rewrite E0, E1. reflexivity.
    + destruct (Hn t (or_introl eq_refl) E1) as (_ & E2). cbn [reals]. unfold renumbered. rewrite E2.
      destruct (bstr_eqb (renumber t) (lit "-0")) eqn:E3; [apply bstr_eqb_eq in E3; rewrite E3 in E2; discriminate E2|].
      f_equal. apply Hi; [left; reflexivity|exact E1].
  - f_equal. rewrite map_map. apply map_ext_in. rewrite Forall_forall in *. intros x Hx. apply H; [exact Hx| |]; intros t Ht.
    + apply Hn. cbn [real_texts]. apply in_flat_map. eauto.
    + apply Hi. cbn [real_texts]. apply in_flat_map. eauto.
  - f_equal. rewrite map_map. apply map_ext_in. rewrite Forall_forall in *. intros kv Hkv. cbn [fst snd]. f_equal. apply H; [exact Hkv| |]; intros t Ht.
    + apply Hn. cbn [real_texts]. apply in_flat_map. eauto.
    + apply Hi. cbn [real_texts]. apply in_flat_map. eauto.
Qed.

(** Files of the program *)
Lemma no_reals_bytes s : no_reals (bytes_to_json s) = true.
Proof. unfold bytes_to_json. destruct (utf8_valid s); [reflexivity|]. cbn [no_reals]. induction s; [reflexivity|]. cbn [map forallb no_reals]. exact IHs. Qed.
Lemma no_reals_token t : no_reals (token_to_json t) = true.
Proof. destruct t; [apply no_reals_bytes|reflexivity]. Qed.
Lemma no_reals_ts ts j : ts_to_json ts = Ret j -> no_reals j = true.
Proof.
  unfold ts_to_json. intros H. apply bind_ret in H as (js & Hj & E). injection E as <-.
  assert (W : forallb no_reals js = true).
  { apply forallb_forall. intros j Hin. apply mmap_ret in Hj. induction Hj as [|q j' l js Hq _ IH]; [destruct Hin|].
    destruct Hin as [<-|Hin]; [|auto]. unfold sequence_to_json in Hq. apply bind_ret in Hq as (ks & Hk & E). injection E as <-.
    cbn [no_reals forallb snd]. rewrite no_reals_bytes. cbn [andb]. rewrite andb_true_r. apply forallb_forall. intros x Hx. apply mmap_ret in Hk.
    clear - Hk Hx. induction Hk as [|i k l ks Hi _ IH]; [destruct Hx|]. destruct Hx as [<-|Hx]; [|auto].
    apply bind_ret in Hi as (t & _ & E). injection E as <-. apply no_reals_token. }
  cbn [no_reals]. assert (T : forallb no_reals (map token_to_json (tokens ts)) = true).
  { apply forallb_forall. intros x Hx. apply in_map_iff in Hx as (t & <- & _). apply no_reals_token. }
  destruct js as [|j js]; cbn [app forallb snd no_reals] in *; rewrite ?W, T; reflexivity.
Qed.

Lemma reals_obj_set renumber k v fs : map (fun kv => (fst kv, reals renumber (snd kv))) (obj_set k v fs) =
  obj_set k (reals renumber v) (map (fun kv => (fst kv, reals renumber (snd kv))) fs).
Proof.
  induction fs as [|(k' & v') fs IH]; [reflexivity|]. cbn [obj_set map fst snd]. destruct (bstr_cmp k k'); [reflexivity|reflexivity|].
  cbn [map fst snd]. f_equal. exact IH.
Qed.

Lemma assoc_other k k' v fs : bstr_eqb k k' = false -> assoc k (obj_set k' v fs) = assoc k fs.
Proof.
  intros H. induction fs as [|(k2 & v2) fs IH]; cbn [obj_set assoc]; [rewrite H; reflexivity|].
  destruct (bstr_cmp k' k2) eqn:C; cbn [assoc]; [|rewrite H; reflexivity|rewrite IH; reflexivity].
  apply bstr_cmp_eq in C. subst k2. rewrite H. reflexivity.
Qed.

(** Loading does not look at the statistics. *)
Lemma load_ignores_stats a b fs : ts_from_json (JObj (obj_set (lit "stats") a fs)) = ts_from_json (JObj (obj_set (lit "stats") b fs)).
Proof.
  assert (J : forall k, bstr_eqb k (lit "stats") = false -> jget (JObj (obj_set (lit "stats") a fs)) k = jget (JObj (obj_set (lit "stats") b fs)) k).
  { intros k Hk. cbn [jget]. rewrite !assoc_other by exact Hk. reflexivity. }
  assert (I : forall k, bstr_eqb k (lit "stats") = false -> jindex (JObj (obj_set (lit "stats") a fs)) k = jindex (JObj (obj_set (lit "stats") b fs)) k).
  { intros k Hk. unfold jindex. rewrite J by exact Hk. reflexivity. }
  unfold ts_from_json, parse_type, parse_split.
  rewrite (I (lit "tokens")), (I (lit "processing")), (I (lit "type")), (I (lit "fallback_bits")), (J (lit "split_paragraph")) by reflexivity.
  rewrite !assoc_other by reflexivity. reflexivity.
Qed.

(** While the script writes, the file holds a prefix of the new text: unless only the last newline
    is missing, it is never taken for a token set. *)
Theorem C91_cut_files_rejected : forall renumber text fs out,
  parse_json text = Some (JObj fs) -> floats_shown renumber (JObj fs) -> pretty renumber text = Some out ->
  forall p x, out = p ++ x -> x <> [] -> x <> [x0a] -> parse_json p = None.
Proof.
  intros renumber text fs out E Hn P p x Ep Hx Hx2. destruct (parse_json_wf _ _ E) as (W & D). destruct (pretty_read renumber _ _ E Hn) as (out' & P' & R & t & Et & Ht).
  rewrite P in P'. injection P' as <-. destruct (parse_json p) as [v|] eqn:Q; [exfalso|reflexivity].
  unfold parse_json in Q. destruct (pvalue (2 * length p + 2) 128 p) as [(v' & r)|] eqn:V; [|discriminate].
  cbn [reals] in Ht. inversion Ht as [| |fs' s Hs]; [discriminate|]. subst fs' t.
  destruct p as [|b p]; [discriminate V|].
  assert (b = x7b) as ->. { rewrite Et in Ep. cbn [app] in Ep. injection Ep as Eb _. auto. }
  assert (Z : is_number v' = false).
  { replace (2 * length (x7b :: p) + 2) with (S (2 * length (x7b :: p) + 1)) in V by lia.
    cbn [pvalue skip_ws] in V. change (is_ws x7b) with false in V. cbv iota beta in V.
    change (Byte.eqb x7b x6e) with false in V. change (Byte.eqb x7b x74) with false in V.
    change (Byte.eqb x7b x66) with false in V. change (Byte.eqb x7b quote) with false in V.
    change (Byte.eqb x7b x5b) with false in V. change (Byte.eqb x7b x7b) with true in V. cbv iota in V.
    destruct (pfields _ 127 true p) as [(l & r')|]; [|discriminate]. injection V as <- _. reflexivity. }
  apply (proj1 (parse_ext _)) with (x := x) (F' := 2 * length out + 2) in V; [|rewrite Ep, app_length; lia|congruence].
  rewrite <- Ep in V. pose proof (proj1 read_written _ _ Ht (reals_jwf renumber _ W Hn) (2 * length out + 2) 128 [x0a]) as S.
  rewrite <- Et in S. rewrite V in S.
  assert (A : Some (v', r ++ x) = Some (reals renumber (JObj fs), [x0a])).
  { apply S; [rewrite Et, !app_length; lia| |repeat split]. pose proof (reals_depth renumber (JObj fs)) as RD. cbn [reals] in RD. rewrite RD. lia. }
  injection A as _ A. destruct r as [|b r]; [exact (Hx2 A)|]. cbn [app] in A. injection A as _ A. apply app_eq_nil in A as (_ & A). exact (Hx A).
Qed.

(** ** Loading *)
Section Renumber.
Variable renumber : bstr -> bstr.
Local Notation re := (reals renumber).

Lemma renumbered_cases t : renumbered renumber t = JNum 0 \/ exists u, renumbered renumber t = JReal u.
Proof. unfold renumbered. destruct (bstr_eqb _ _); [auto|]. destruct (integer_text _); eauto. Qed.
Lemma re_is_number v : is_number (re v) = is_number v.
Proof. destruct v; try reflexivity. cbn [reals]. destruct (renumbered_cases text) as [->|(u & ->)]; reflexivity. Qed.
Lemma re_assoc k fs : assoc k (map (fun kv => (fst kv, re (snd kv))) fs) = option_map re (assoc k fs).
Proof. induction fs as [|(k' & v) fs IH]; [reflexivity|]. cbn [map assoc fst snd]. destruct (bstr_eqb k k'); [reflexivity|exact IH]. Qed.
Lemma re_jget v k : jget (re v) k = option_map re (jget v k).
Proof. destruct v; try reflexivity; [|cbn [reals jget]; apply re_assoc]. cbn [reals jget option_map]. destruct (renumbered_cases text) as [->|(u & ->)]; reflexivity. Qed.
Lemma re_jindex v k : jindex (re v) k = re (jindex v k).
Proof. unfold jindex. rewrite re_jget. destruct (jget v k); reflexivity. Qed.

Lemma digits_integer ds : forallb is_digit ds = true -> existsb (fun b => Byte.eqb b x2e || Byte.eqb b x65 || Byte.eqb b x45) ds = false.
Proof.
  induction ds as [|b ds IH]; [reflexivity|]. cbn [forallb existsb]. intros H. apply andb_prop in H as (Hb & H). rewrite IH by exact H.
  destruct b; try discriminate Hb; reflexivity.
Qed.
Lemma re_byte v b : as_i64_u8 v = Ret b -> as_i64_u8 (re v) = Ret b.
Proof.
  destruct v; try discriminate; [intros H; exact H|]. intros H. destruct text as [|m ds]; [discriminate|]. cbn [reals].
  cbn [as_i64_u8] in H. destruct (_ && _) eqn:C in H; [|discriminate].
  pose proof C as C'. apply andb_prop in C' as (C1 & _). apply andb_prop in C1 as (C1 & C4). apply andb_prop in C1 as (C1 & C3).
  apply andb_prop in C1 as (C1 & C2). apply Byte.byte_dec_bl in C1. subst m.
  assert (Ei : integer_text (x2d :: ds) = true). { unfold integer_text. cbn [existsb]. rewrite (digits_integer ds C3). reflexivity. }
  unfold renumbered. rewrite Ei. destruct (bstr_eqb (x2d :: ds) (lit "-0")) eqn:Z.
  - apply bstr_eqb_eq in Z. change (lit "-0") with [x2d; x30] in Z. injection Z as ->. discriminate C4.
  - cbn [as_i64_u8]. rewrite C. exact H.
Qed.
Lemma re_mmap {A} (f : json -> outcome A) (Hf : forall v x, f v = Ret x -> f (re v) = Ret x) l xs : mmap f l = Ret xs -> mmap f (map re l) = Ret xs.
Proof.
  revert xs. induction l as [|v l IH]; intros xs H; [exact H|]. cbn [map mmap] in *. apply bind_ret in H as (x & Ex & H). apply bind_ret in H as (ys & Ey & H).
  rewrite (Hf _ _ Ex). cbn [bind]. rewrite (IH _ Ey). exact H.
Qed.
Lemma re_parse_token v x : parse_token v = Ret x -> parse_token (re v) = Ret x.
Proof.
  destruct v; try discriminate; try (intros H; exact H). cbn [reals parse_token]. intros H. apply bind_ret in H as (bs & Eb & H).
  rewrite (re_mmap _ re_byte _ _ Eb). exact H.
Qed.
Lemma re_as_array v l : as_array v = Ret l -> as_array (re v) = Ret (map re l).
Proof. destruct v; try discriminate. intros H. apply ret_inj in H. subst l. reflexivity. Qed.
Lemma re_load_sequence ts v x : load_sequence ts v = Ret x -> load_sequence ts (re v) = Ret x.
Proof.
  unfold load_sequence. rewrite !re_jindex. intros H. apply bind_ret in H as (st & Es & H). rewrite (re_parse_token _ _ Es). cbn [bind].
  destruct st as [s|]; [|discriminate]. apply bind_ret in H as (l & El & H). rewrite (re_as_array _ _ El). cbn [bind].
  apply bind_ret in H as (toks & Et & H). erewrite re_mmap; [exact H| |exact Et].
  intros u y Hu. apply bind_ret in Hu as (tk & Etk & Hu). rewrite (re_parse_token _ _ Etk). exact Hu.
Qed.
Lemma re_mfold {A} (f : A -> json -> outcome A) (Hf : forall a v x, f a v = Ret x -> f a (re v) = Ret x) l : forall a x, mfold f l a = Ret x -> mfold f (map re l) a = Ret x.
Proof.
  induction l as [|v l IH]; intros a x H; [exact H|]. cbn [map mfold] in *. apply bind_ret in H as (y & Ey & H). rewrite (Hf _ _ _ Ey). cbn [bind]. apply IH, H.
Qed.
Lemma re_load v ts : ts_from_json v = Ret ts -> ts_from_json (re v) = Ret ts.
Proof.
  unfold ts_from_json. rewrite !re_jindex. intros H. apply bind_ret in H as (toks & Et & H). rewrite (re_as_array _ _ Et). cbn [bind].
  assert (L : length (filter is_number (map re toks)) = length (filter is_number toks)).
  { clear. induction toks as [|x l IH]; [reflexivity|]. cbn [map filter]. rewrite re_is_number. destruct (is_number x); cbn [length]; rewrite IH; reflexivity. }
  rewrite L. clear L.
  apply bind_ret in H as (pr & Ep & H).
  assert (P : parse_processing (re (jindex v (lit "processing"))) = Ret pr) by (destruct (jindex v (lit "processing")); try discriminate Ep; exact Ep).
  rewrite P. clear P. cbn [bind]. apply bind_ret in H as (ty & Ety & H).
  assert (P : parse_type (re v) = Ret ty).
  { unfold parse_type in *. rewrite !re_jindex. destruct (jindex v (lit "type")); try discriminate Ety. cbn [reals].
    destruct (bstr_eqb s (lit "fallback_bits")); [|exact Ety]. destruct (jindex v (lit "fallback_bits")); try discriminate Ety. exact Ety. }
  rewrite P. clear P. cbn [bind]. apply bind_ret in H as (sp & Esp & H).
  assert (P : parse_split (re v) = Ret sp).
  { unfold parse_split in *. rewrite re_jget. destruct (jget v _) as [x|]; [|exact Esp]. destruct x; try discriminate Esp. exact Esp. }
  rewrite P. clear P. cbn [bind]. apply bind_ret in H as (ts0 & E0 & H). rewrite E0. cbn [bind].
  apply bind_ret in H as (ts1 & E1 & H).
  assert (P : load_tokens ts0 (map re toks) = Ret ts1).
  { unfold load_tokens in *. eapply re_mfold; [|exact E1]. intros a u x Hu. apply bind_ret in Hu as (tk & Etk & Hu). rewrite (re_parse_token _ _ Etk). exact Hu. }
  rewrite P. clear P. cbn [bind].
  destruct v; try discriminate H. cbn [reals]. rewrite re_assoc. destruct (assoc _ _) as [x|]; [|exact H]. cbn [option_map].
  apply bind_ret in H as (l & El & H). rewrite (re_as_array _ _ El). cbn [bind]. eapply re_mfold; [|exact H]. intros a u y. apply re_load_sequence.
Qed.
End Renumber.

(** Any file that loads, whoever wrote it, loads as the same set after the script. *)
Theorem C91_any_file_kept : forall renumber text v ts,
  parse_json text = Some v -> floats_shown renumber v -> read_token_set text = Ret ts ->
  exists out, pretty renumber text = Some out /\ read_token_set out = Ret ts.
Proof.
  intros renumber text v ts E Hn H. destruct (pretty_read renumber text v E Hn) as (out & P & R & _). exists out. split; [exact P|].
  unfold read_token_set in *. rewrite E in H. rewrite R. cbn [unwrap bind] in *. apply re_load. exact H.
Qed.

(** A file that does not load may do so after the script: Python writes [-0] as [0]. *)
Definition minus_zero : bstr := lit "{""processing"":""raw"",""tokens"":[[-0]],""type"":""bytes""}".
Theorem C91_minus_zero_may_load : exists out, read_token_set minus_zero = Panic /\ pretty id minus_zero = Some out /\
  exists ts, read_token_set out = Ret ts /\ tokens ts = [Str [x00]].
Proof. eexists. split; [vm_compute; reflexivity|]. split; [vm_compute; reflexivity|]. eexists. split; vm_compute; reflexivity. Qed.

Lemma no_reals_texts v : no_reals v = true -> real_texts v = [].
Proof.
  induction v using json_ind2; intros E; try reflexivity; [discriminate| |]; cbn [no_reals real_texts] in *; rewrite forallb_forall in E; rewrite Forall_forall in H.
  - induction l as [|x l IH]; [reflexivity|]. cbn [flat_map]. rewrite (H x (or_introl eq_refl) (E x (or_introl eq_refl))). apply IH; intros y Hy; [apply H|apply E]; right; exact Hy.
  - induction fs as [|x l IH]; [reflexivity|]. cbn [flat_map]. rewrite (H x (or_introl eq_refl) (E x (or_introl eq_refl))). apply IH; intros y Hy; [apply H|apply E]; right; exact Hy.
Qed.
Lemma texts_stats ratio s fs0 t : no_reals (JObj fs0) = true -> forall fs, obj_set (lit "stats") (stats_object ratio s) fs0 = fs ->
  In t (real_texts (JObj fs)) -> exists a b, t = ratio a b.
Proof.
  intros R fs <- Ht. cbn [real_texts] in Ht. apply in_flat_map in Ht as (kv & Hk & Ht). apply obj_set_in in Hk as [->|Hk].
  - cbn [snd] in Ht. unfold stats_object in Ht. cbn [real_texts] in Ht. destruct (initial_size s) as [n|]; cbn [flat_map real_texts snd app] in Ht; [|destruct Ht].
    destruct (total_tokens s =? 0); cbn [real_texts app In] in Ht; [destruct Ht|]. destruct Ht as [<-|[]]. eauto.
  - cbn [no_reals] in R. rewrite forallb_forall in R. rewrite (no_reals_texts _ (R kv Hk)) in Ht. destruct Ht.
Qed.

(** Any token set file the program wrote, with or without statistics: what is loaded from it
    afterwards is exactly what was loaded before (be it a set or a panic), and its statistics that
    are natural numbers are unchanged. *)
Theorem C91_token_set_kept : forall renumber ratio s file,
  (forall a b, integer_text (ratio a b) = false -> number_text (renumber (ratio a b)) /\ integer_text (renumber (ratio a b)) = false) ->
  (set_text (st_token_set s) = Ret file \/ writable ratio s /\ stats_text ratio s = Ret file) ->
  exists out, pretty renumber file = Some out /\ read_token_set out = read_token_set file /\
    exists v v', parse_json file = Some v /\ parse_json out = Some v' /\
      forall k n, jindex (jindex v (lit "stats")) k = JNum n -> jindex (jindex v' (lit "stats")) k = JNum n.
Proof.
  intros renumber ratio s file Hn [H|(W & H)].
  - unfold set_text in H. apply bind_ret in H as (j & Ej & H). apply ret_inj in H. subst file.
    destruct (jwf_ts _ _ Ej) as (fs & -> & W3 & D3 & _). pose proof (parse_show _ W3 ltac:(lia)) as P.
    destruct (C91_content_kept renumber _ _ P (no_reals_ts _ _ Ej)) as (out & E1 & E2).
    exists out. split; [exact E1|]. split; [unfold read_token_set; rewrite P, E2; reflexivity|].
    exists (JObj fs), (JObj fs). split; [exact P|]. split; [exact E2|]. auto.
  - unfold stats_text in H. apply bind_ret in H as (v & Ev & H). apply ret_inj in H. subst file.
    pose proof Ev as Ev2. unfold stats_to_json in Ev2. apply bind_ret in Ev2 as (j & Ej & Ev2).
    destruct (jwf_stats ratio s W) as (W1 & D1). destruct (jwf_stats_json _ _ _ Ej W1 D1) as (fs & E' & W2 & D2).
    rewrite Ev in E'. apply ret_inj in E'. subst v.
    destruct (jwf_ts _ _ Ej) as (fs0 & -> & _). apply ret_inj in Ev2. injection Ev2 as Ef.
    pose proof (parse_show _ W2 ltac:(lia)) as P.
    assert (Fl : floats_shown renumber (JObj fs)).
    { intros t Ht Et. apply (texts_stats ratio s fs0 t) in Ht as (a & b & ->); [apply Hn, Et|apply no_reals_ts in Ej; exact Ej|exact Ef]. }
    destruct (pretty_read renumber _ _ P Fl) as (out & E1 & E2 & _).
    pose proof (no_reals_ts _ _ Ej) as R. apply (reals_id renumber) in R. cbn [reals] in R. injection R as R.
    assert (Er : reals renumber (JObj fs) = JObj (obj_set (lit "stats") (reals renumber (stats_object ratio s)) fs0)).
    { cbn [reals]. rewrite <- Ef, reals_obj_set, R. reflexivity. }
    rewrite Er in E2. exists out. split; [exact E1|]. split.
    + unfold read_token_set. rewrite P, E2. cbn [unwrap bind]. rewrite <- Ef. apply load_ignores_stats.
    + eexists _, _. split; [exact P|]. split; [exact E2|]. intros k n. unfold jindex at 2 4. rewrite <- Ef. cbn [jget].
      assert (A : forall v, assoc (lit "stats") (obj_set (lit "stats") v fs0) = Some v).
      { intros v. clear. assert (Z : forall k, bstr_eqb k k = true) by (intros k; apply bstr_eqb_eq; reflexivity). generalize (lit "stats"). intros k.
        induction fs0 as [|(k' & v') fs IH]; cbn [obj_set assoc]; [rewrite Z; reflexivity|].
        destruct (bstr_cmp k k') eqn:C; cbn [assoc]; [rewrite Z; reflexivity|rewrite Z; reflexivity|].
        destruct (bstr_eqb k k') eqn:E; [|exact IH]. apply bstr_eqb_eq in E. subst. rewrite (proj2 (bstr_cmp_eq k' k') eq_refl) in C. discriminate C. }
      rewrite !A. destruct (stats_object ratio s) as [| | | | | |sf]; try (cbn; discriminate). cbn [reals]. unfold jindex. cbn [jget].
      clear. induction sf as [|(k' & v') sf IH]; cbn [map assoc fst snd]; [discriminate|]. destruct (bstr_eqb k k'); [|exact IH]. intros ->. reflexivity.
Qed.

(** ** A concrete file: the one of C56's example, and the lines written for it *)
Example C91_example : exists file out, writable (fun _ _ => lit "0.75") huff_stats /\ stats_text (fun _ _ => lit "0.75") huff_stats = Ret file /\
  pretty id file = Some out /\
  out = flat_map (fun l => l ++ [x0a]) [
    lit "{";
    lit "  ""processing"": ""raw"",";
    lit "  ""sequences"": [{""string"": ""b"", ""tokens"": [""a"", 0]}, {""string"": ""c"", ""tokens"": [""a"", 1]}],";
    lit "  ""split_paragraphs"": true,";
    lit "  ""stats"": {";
    lit "    ""bytes_per_token"": 0.75,";
    lit "    ""initial_size"": 9,";
    lit "    ""ntokens"": 4,";
    lit "    ""scanned_bytes"": 9,";
    lit "    ""total_tokens"": 12";
    lit "  },";
    lit "  ""tokens"": [0, 1, ""a"", ""bc""],";
    lit "  ""type"": ""byteshuff""";
    lit "}"].
Proof.
  destruct C56_hypotheses_met as (W & _ & E). eexists _, _. split; [exact W|]. split; [exact E|]. split; [|reflexivity].
  vm_compute. reflexivity.
Qed.
Example C91_hypotheses_met : exists file v, stats_text (fun _ _ => lit "0.75") huff_stats = Ret file /\ parse_json file = Some v /\
  floats_shown id v /\ real_texts v = [lit "0.75"] /\ integer_text (lit "0.75") = false /\ (forall t : bstr, id (id t) = id t).
Proof.
  destruct C56_hypotheses_met as (W & _ & E). eexists _, _. split; [exact E|]. split; [vm_compute; reflexivity|].
  split; [|split; [reflexivity|]; split; [reflexivity|]; intros t; reflexivity].
  intros t [<-|[]] Ht. split; [vm_compute; reflexivity|exact Ht].
Qed.
