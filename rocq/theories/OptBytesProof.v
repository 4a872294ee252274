(** * Facts about src/optimize_bytes.rs: interval splitting and extension codes. *)
From Verif Require Import Base BaseLemmas TokenSetModel TokenizerModel OptBytesModel.

(** ** Specification *)

(** The bytes of a table are strictly increasing. *)
Definition increasing (t : ctable) : Prop :=
  StronglySorted (fun a b => b2n (fst a) < b2n (fst b)) t.

(** A split describes the interval [g] of the table: its first byte and a byte
    with the highest count. *)
Definition split_of (sp : chars_split) (g : ctable) : Prop :=
  (exists c r, g = (cs_lo sp, c) :: r) /\
  In (cs_top sp, cs_top_count sp) g /\
  forall x, In x g -> snd x <= cs_top_count sp.

(** ** Lists *)
Lemma SS_app {A} (R : A -> A -> Prop) l1 l2 :
  StronglySorted R (l1 ++ l2) <->
  StronglySorted R l1 /\ StronglySorted R l2 /\ forall x y, In x l1 -> In y l2 -> R x y.
Proof.
  induction l1 as [|a l1 IH]; cbn.
  - split; [intros H; split; [constructor|split; [exact H|intros x y []]]|intros (_ & H & _); exact H].
  - split.
    + intros H. inversion H as [|? ? H1 H2]; subst. apply IH in H1 as (H1 & H3 & H4).
      apply Forall_app in H2 as (H2 & H5). rewrite Forall_forall in H5.
      split; [constructor; assumption|]. split; [exact H3|].
      intros x y [<-|Hx] Hy; [apply H5; exact Hy|apply H4; assumption].
    + intros (H1 & H2 & H3). inversion H1; subst. constructor.
      * apply IH. split; [assumption|]. split; [exact H2|]. intros; apply H3; auto.
      * apply Forall_app. split; [assumption|]. apply Forall_forall. intros; apply H3; auto.
Qed.

Lemma increasing_NoDup t : increasing t -> NoDup (map fst t).
Proof.
  induction 1 as [|x t _ IH Hx]; cbn; constructor; [|exact IH].
  intros Hi. apply in_map_iff in Hi as (y & E & Hy). rewrite Forall_forall in Hx.
  specialize (Hx y Hy). rewrite E in Hx. lia.
Qed.

Lemma slice_mid {A} (a b c : list A) : slice (a ++ b ++ c) (length a) (length a + length b) = Ret b.
Proof.
  unfold slice. rewrite !app_length.
  replace (length a <=? length a + length b) with true by (symmetry; apply Nat.leb_le; lia).
  replace (_ <=? _) with true by (symmetry; apply Nat.leb_le; lia). cbn [andb].
  rewrite skipn_app, skipn_all, Nat.sub_diag. cbn [skipn app].
  replace (length a + length b - length a) with (length b) by lia.
  rewrite firstn_app, firstn_all, Nat.sub_diag. cbn. rewrite app_nil_r. reflexivity.
Qed.

Lemma vremove_mid {A} (a b : list A) x : vremove (a ++ x :: b) (length a) = Ret (a ++ b).
Proof.
  unfold vremove. rewrite app_length; cbn [length].
  replace (length a <? _) with true by (symmetry; apply Nat.ltb_lt; lia).
  rewrite firstn_app, firstn_all, Nat.sub_diag, app_nil_r. f_equal. f_equal.
  clear. induction a as [|y a IH]; [reflexivity|exact IH].
Qed.

Lemma split_at {A} (l : list A) i : i < length l -> exists a x b, l = a ++ x :: b /\ length a = i.
Proof.
  intros H. destruct (nth_error l i) as [x|] eqn:E; [|apply nth_error_None in E; lia].
  apply nth_error_split in E as (a & b & -> & <-). eauto.
Qed.

Lemma idx_mid {A} (a b : list A) x i : i = length a -> idx (a ++ x :: b) i = Ret x.
Proof. intros ->. unfold idx. rewrite nth_error_app2, Nat.sub_diag by lia. reflexivity. Qed.

Lemma upd_mid {A} (a b : list A) x f : upd (length a) f (a ++ x :: b) = a ++ f x :: b.
Proof. induction a as [|y a IH]; cbn; [reflexivity|]. f_equal; exact IH. Qed.

Lemma filter_id {A} (p : A -> bool) l : (forall x, In x l -> p x = true) -> filter p l = l.
Proof.
  induction l as [|x l IH]; intros H; cbn; [reflexivity|].
  rewrite (H x) by (left; reflexivity). f_equal. apply IH. intros y Hy; apply H; right; exact Hy.
Qed.

(** ** Merging nodes *)
Fixpoint leaves (n : hnode) : ctable :=
  match n with HLeaf c ch => [(ch, c)] | HInt _ a b => leaves a ++ leaves b end.

Lemma best_pair_ok nodes : 2 <= length nodes ->
  exists c i, best_pair nodes = Ret (Some (c, i)) /\ i + 1 < length nodes.
Proof.
  intros H. unfold best_pair.
  assert (G : forall l best, (forall i, In i l -> i + 1 < length nodes) ->
    (forall c i, best = Some (c, i) -> i + 1 < length nodes) ->
    exists r, mfold (fun best i =>
           a <- idx nodes i ;; b <- idx nodes (i + 1) ;;
           let c := h_count a + h_count b in
           match best with
           | None => Ret (Some (c, i))
           | Some (m, _) => if c <? m then Ret (Some (c, i)) else Ret best
           end) l best = Ret r /\
      (forall c i, r = Some (c, i) -> i + 1 < length nodes) /\
      (l <> [] \/ best <> None -> r <> None)).
  { induction l as [|i l IH]; intros best Hl Hb.
    - exists best. split; [reflexivity|]. split; [exact Hb|]. intros [E|E]; [congruence|exact E].
    - cbn [mfold]. assert (Hi : i + 1 < length nodes) by (apply Hl; left; reflexivity).
      destruct (nth_error nodes i) as [a|] eqn:Ea; [|apply nth_error_None in Ea; lia].
      destruct (nth_error nodes (i + 1)) as [b|] eqn:Eb; [|apply nth_error_None in Eb; lia].
      unfold idx at 1 2. rewrite Ea, Eb. cbn [unwrap bind].
      set (best' := match best with
           | None => Some (h_count a + h_count b, i)
           | Some (m, _) => if h_count a + h_count b <? m then Some (h_count a + h_count b, i) else best
           end).
      destruct (IH best') as (r & E & Hr & Hn).
      { intros j Hj; apply Hl; right; exact Hj. }
      { intros c j. unfold best'. destruct best as [[m j']|].
        - destruct (_ <? m); [intros E; injection E as <- <-; exact Hi|apply Hb].
        - intros E; injection E as <- <-; exact Hi. }
      exists r. split; [|split; [exact Hr|]].
      + rewrite <- E. unfold best'. destruct best as [[m j']|]; [destruct (_ <? m)|]; reflexivity.
      + intros _. apply Hn. right. unfold best'. destruct best as [[m j']|]; [destruct (_ <? m)|]; discriminate. }
  destruct (G (seq 0 (length nodes - 1)) None) as (r & E & Hr & Hn).
  { intros i Hi. apply in_seq in Hi. lia. }
  { discriminate. }
  destruct r as [[c i]|].
  - exists c, i. split; [exact E|]. eapply Hr; reflexivity.
  - exfalso. apply Hn; [|reflexivity]. left. destruct (length nodes - 1) eqn:El; [lia|discriminate].
Qed.

Lemma merge_nodes_ok parts : 1 <= parts -> forall fuel nodes, length nodes <= fuel + parts ->
  exists r, merge_nodes fuel parts nodes = Ret r /\
    flat_map leaves r = flat_map leaves nodes /\ length r = Nat.min parts (length nodes).
Proof.
  intros Hp. induction fuel as [|fuel IH]; intros nodes Hf; cbn [merge_nodes];
    destruct (Nat.ltb_spec parts (length nodes)) as [Hl|Hl]; try lia;
    try (exists nodes; split; [reflexivity|]; split; [reflexivity|lia]).
  destruct (best_pair_ok nodes) as (c & i & E & Hi); [lia|]. rewrite E. cbn [bind unwrap].
  destruct (split_at nodes i) as (a & x & b' & -> & Ha); [lia|].
  destruct b' as [|y b]; [rewrite app_length in Hi; cbn in Hi; lia|].
  assert (E1 : idx (a ++ x :: y :: b) (i + 1) = Ret y).
  { change (a ++ x :: y :: b) with (a ++ [x] ++ y :: b). rewrite app_assoc.
    apply idx_mid. rewrite app_length; cbn; lia. }
  assert (E2 : vremove (a ++ x :: y :: b) (i + 1) = Ret (a ++ x :: b)).
  { change (a ++ x :: y :: b) with (a ++ [x] ++ y :: b). rewrite app_assoc.
    replace (i + 1) with (length (a ++ [x])) by (rewrite app_length; cbn; lia).
    rewrite vremove_mid, <- app_assoc. reflexivity. }
  rewrite E1, E2. cbn [bind].
  rewrite (idx_mid a b x i) by (symmetry; exact Ha). cbn [bind]. unfold idx_upd.
  rewrite app_length. cbn [length].
  replace (i <? _) with true by (symmetry; apply Nat.ltb_lt; lia). cbn [bind].
  rewrite <- Ha, upd_mid.
  destruct (IH (a ++ HInt (h_count x + h_count y) x y :: b)) as (r & Er & Hr & Hlen).
  { rewrite app_length in *; cbn in *; lia. }
  exists r. split; [exact Er|]. split.
  - rewrite Hr, !flat_map_app. cbn. rewrite <- app_assoc. reflexivity.
  - rewrite Hlen, !app_length in *. cbn in *. lia.
Qed.

Lemma leaves_nonempty n : leaves n <> [].
Proof. induction n as [|c a IHa b IHb]; cbn; [discriminate|]. intros E. apply app_eq_nil in E as [E _]. auto. Qed.

Lemma node_split_of n : increasing (leaves n) -> split_of (node_to_split n) (leaves n).
Proof.
  induction n as [c ch|c a IHa b IHb]; intros H; cbn [leaves node_to_split] in *.
  - split; [exists c, []; reflexivity|]. split; [left; reflexivity|]. intros x [<-|[]]. cbn; lia.
  - apply SS_app in H as (Ha & Hb & Hab). destruct (IHa Ha) as ((ca & ra & Ea) & Ta & Ma).
    destruct (IHb Hb) as ((cb & rb & Eb) & Tb & Mb).
    assert (Hlt : b2n (cs_lo (node_to_split a)) < b2n (cs_lo (node_to_split b))).
    { apply (Hab (cs_lo (node_to_split a), ca) (cs_lo (node_to_split b), cb));
        [rewrite Ea|rewrite Eb]; left; reflexivity. }
    destruct (Nat.ltb_spec (cs_top_count (node_to_split b)) (cs_top_count (node_to_split a))) as [Hc|Hc];
      (split; [|split]); cbn [cs_lo cs_top cs_top_count].
    1,4: unfold byte_min; rewrite (proj2 (Nat.leb_le _ _)) by lia;
        rewrite Ea; exists ca, (ra ++ leaves b); reflexivity.
    + apply in_app_iff; auto.
    + intros x Hx. apply in_app_iff in Hx as [Hx|Hx]; [apply Ma; exact Hx|].
      specialize (Mb x Hx). lia.
    + apply in_app_iff; auto.
    + intros x Hx. apply in_app_iff in Hx as [Hx|Hx]; [specialize (Ma x Hx); lia|apply Mb; exact Hx].
Qed.

Lemma concat_map_flat {A B} (f : A -> list B) l : concat (map f l) = flat_map f l.
Proof. symmetry; apply flat_map_concat_map. Qed.

Lemma increasing_group groups g : increasing (concat groups) -> In g groups -> increasing g.
Proof.
  intros H Hg. apply in_split in Hg as (l1 & l2 & ->). rewrite concat_app in H. cbn in H.
  apply SS_app in H as (_ & H & _). apply SS_app in H as (H & _). exact H.
Qed.

Lemma optimize_splits_ok counts parts : 1 <= parts -> increasing counts ->
  exists splits groups, optimize_splits counts parts = Ret splits /\
    concat groups = counts /\ length groups = Nat.min parts (length counts) /\
    Forall2 split_of splits groups.
Proof.
  intros Hp Hs. unfold optimize_splits.
  destruct (merge_nodes_ok parts Hp (length counts) (map (fun p => HLeaf (snd p) (fst p)) counts))
    as (r & E & Hr & Hl); [rewrite map_length; lia|].
  rewrite E. cbn [bind].
  assert (Hc : flat_map leaves r = counts).
  { rewrite Hr. clear. induction counts as [|[b c] t IH]; cbn; [reflexivity|]. f_equal; exact IH. }
  exists (map node_to_split r), (map leaves r). split; [reflexivity|].
  rewrite concat_map_flat. split; [exact Hc|]. split; [rewrite map_length, Hl, map_length; reflexivity|].
  assert (Hall : forall n, In n r -> increasing (leaves n)).
  { intros n Hn. apply (increasing_group (map leaves r)).
    - rewrite concat_map_flat, Hc. exact Hs.
    - apply in_map; exact Hn. }
  clear -Hall. induction r as [|n r IH]; cbn; constructor.
  - apply node_split_of, Hall. left; reflexivity.
  - apply IH. intros m Hm; apply Hall; right; exact Hm.
Qed.

(** ** Binary search *)
Lemma increasing_entries_sorted t : increasing t -> entries_sorted t = true.
Proof.
  induction 1 as [|x t Ht IH Hx]; [reflexivity|]. cbn [entries_sorted]. destruct t as [|y t]; [reflexivity|].
  rewrite IH, andb_true_r. inversion Hx; subst. unfold entry_cmp.
  rewrite (proj2 (Nat.compare_lt_iff _ _)) by assumption. reflexivity.
Qed.

Definition positive (t : ctable) : Prop := forall x, In x t -> 1 <= snd x.

Lemma search_err_ok a c r x : increasing (a ++ (x, c) :: r) -> positive (a ++ (x, c) :: r) ->
  search_err (a ++ (x, c) :: r) (x, 0) = Ret (length a).
Proof.
  intros Hs Hp. unfold search_err. rewrite increasing_entries_sorted by exact Hs. cbn [assert_that bind].
  assert (Hne : existsb (fun y => match entry_cmp y (x, 0) with Eq => true | _ => false end)
                 (a ++ (x, c) :: r) = false).
  { apply not_true_iff_false. intros H. apply existsb_exists in H as (y & Hy & H).
    specialize (Hp y Hy). revert H. unfold entry_cmp. cbn [fst snd].
    destruct (Nat.compare _ _); try discriminate. destruct (snd y); [lia|]. cbn. discriminate. }
  rewrite Hne. cbn [negb assert_that bind]. f_equal.
  apply SS_app in Hs as (Ha & Hx & Hax). inversion Hx as [|? ? Hr Hxr]; subst.
  rewrite filter_app, app_length.
  assert (E1 : filter (fun y => entry_ltb y (x, 0)) a = a).
  { apply filter_id. intros y Hy. unfold entry_ltb, entry_cmp. cbn [fst].
    rewrite (proj2 (Nat.compare_lt_iff _ _)); [reflexivity|]. apply (Hax y (x, c)); [exact Hy|left; reflexivity]. }
  assert (E2 : filter (fun y => entry_ltb y (x, 0)) ((x, c) :: r) = []).
  { cbn [filter]. unfold entry_ltb at 1, entry_cmp at 1. cbn [fst snd]. rewrite Nat.compare_refl.
    assert (Hc : 1 <= c) by (apply (Hp (x, c)), in_app_iff; right; left; reflexivity).
    destruct c; [lia|]. cbn [Nat.compare]. clear -Hxr. induction Hxr as [|y r Hy _ IH]; [reflexivity|].
    cbn [filter]. unfold entry_ltb at 1, entry_cmp at 1. cbn [fst] in *.
    rewrite (proj2 (Nat.compare_gt_iff _ _)) by exact Hy. exact IH. }
  rewrite E1, E2. cbn. lia.
Qed.

(** ** The entries of one split *)
(** [removed g top g']: [g'] is [g] without the entry of [top]. *)
Definition removed (g : ctable) (top : byte) (g' : ctable) : Prop :=
  exists a b c, g = a ++ (top, c) :: b /\ g' = a ++ b.

Lemma Forall2_app_mid {A B} (R : A -> B -> Prop) l1 x l2 g1 y g2 :
  Forall2 R (l1 ++ x :: l2) (g1 ++ y :: g2) -> length l1 = length g1 ->
  Forall2 R l1 g1 /\ R x y /\ Forall2 R l2 g2.
Proof.
  revert g1; induction l1 as [|a l1 IH]; intros [|b g1] H Hl; cbn in *; try discriminate.
  - inversion H; subst; auto.
  - inversion H; subst. injection Hl as Hl. destruct (IH g1) as (Q1 & Q2 & Q3); auto.
Qed.

Lemma sub_table_ok counts splits groups i sp g :
  increasing counts -> positive counts -> concat groups = counts ->
  Forall2 split_of splits groups ->
  nth_error splits i = Some sp -> nth_error groups i = Some g ->
  exists g', removed g (cs_top sp) g' /\
    sub_table counts splits i sp = Ret (match g' with [] => None | _ => Some g' end).
Proof.
  intros Hs Hp Hc HF Esp Eg.
  destruct (nth_error_split _ _ Esp) as (s1 & s2 & Es & Hl1).
  destruct (nth_error_split _ _ Eg) as (g1 & g2 & Egr & Hl2).
  rewrite Es, Egr in HF. destruct (Forall2_app_mid _ _ _ _ _ _ _ HF) as (F1 & Hsp & F2); [congruence|].
  destruct Hsp as ((c0 & r0 & Eg0) & Htop & _).
  rewrite Egr, concat_app in Hc. cbn [concat] in Hc. subst counts.
  assert (Hg : increasing g). { apply SS_app in Hs as (_ & Hs & _). apply SS_app in Hs as (Hs & _). exact Hs. }
  assert (Hpg : positive g). { intros x Hx. apply Hp. apply in_app_iff; right; apply in_app_iff; left; exact Hx. }
  unfold sub_table.
  assert (Elo : search_err (concat g1 ++ g ++ concat g2) (cs_lo sp, 0) = Ret (length (concat g1))).
  { revert Hs Hp. rewrite Eg0. cbn [app]. intros Hs Hp. apply search_err_ok; assumption. }
  rewrite Elo. cbn [bind].
  assert (Ehi : (if i =? length splits - 1 then Ret (length (concat g1 ++ g ++ concat g2))
         else next <- idx splits (i + 1) ;; search_err (concat g1 ++ g ++ concat g2) (cs_lo next, 0))
         = Ret (length (concat g1) + length g)).
  { destruct (Nat.eqb_spec i (length splits - 1)) as [Ei|Ei].
    - assert (g2 = []).
      { apply Forall2_length in F2. rewrite Es, app_length in Ei. cbn in Ei. destruct g2; [reflexivity|].
        cbn in F2. lia. }
      subst g2. cbn [concat]. rewrite app_nil_r, app_length. reflexivity.
    - destruct s2 as [|nx s2]; [rewrite Es, app_length in Ei; cbn in Ei; lia|].
      destruct g2 as [|gn g2]; [inversion F2|]. 
      assert (Hnx : split_of nx gn) by (inversion F2; assumption). rewrite Es.
      destruct Hnx as ((cn & rn & En) & _).
      change (s1 ++ sp :: nx :: s2) with (s1 ++ [sp] ++ nx :: s2). rewrite app_assoc.
      rewrite (idx_mid (s1 ++ [sp]) s2 nx) by (rewrite app_length; cbn; lia). cbn [bind].
      rewrite <- app_length.
      cbn [concat] in Hs, Hp |- *. rewrite En in Hs, Hp |- *.
      assert (E' : concat g1 ++ g ++ ((cs_lo nx, cn) :: rn) ++ concat g2
                   = (concat g1 ++ g) ++ (cs_lo nx, cn) :: (rn ++ concat g2))
        by (rewrite <- app_assoc; reflexivity).
      rewrite E' in Hs, Hp |- *. apply search_err_ok; assumption. }
  rewrite Ehi. cbn [bind].
  apply in_split in Htop as (a & b & Egt).
  exists (a ++ b). split; [exists a, b, (cs_top_count sp); auto|].
  destruct (Nat.eqb_spec (length (concat g1) + length g) (length (concat g1) + 1)) as [E|E].
  - rewrite Egt, app_length in E. cbn in E. destruct a; [|cbn in E; lia]. destruct b; [|cbn in E; lia]. reflexivity.
  - rewrite slice_mid. cbn [bind].
    assert (Ht : search_err g (cs_top sp, 0) = Ret (length a)).
    { rewrite Egt in *. apply search_err_ok; assumption. }
    rewrite Ht. cbn [bind]. rewrite Egt at 1. rewrite vremove_mid. cbn [bind].
    destruct (a ++ b) eqn:Eab; [|reflexivity].
    apply app_eq_nil in Eab as [-> ->]. rewrite Egt in E. cbn in E. lia.
Qed.

Lemma removed_perm g top g' : removed g top g' ->
  Permutation (map fst g) (top :: map fst g') /\ length g = S (length g').
Proof.
  intros (a & b & c & -> & ->). split.
  - rewrite !map_app. cbn. symmetry. apply Permutation_middle.
  - rewrite !app_length. cbn. lia.
Qed.

Lemma removed_increasing g top g' : removed g top g' -> increasing g -> increasing g'.
Proof.
  intros (a & b & c & -> & ->) H. apply SS_app in H as (H1 & H2 & H3). inversion H2; subst.
  apply SS_app. split; [exact H1|]. split; [assumption|]. intros x y Hx Hy. apply H3; [exact Hx|right; exact Hy].
Qed.

Lemma removed_positive g top g' : removed g top g' -> positive g -> positive g'.
Proof.
  intros (a & b & c & -> & ->) H x Hx. apply H. apply in_app_iff in Hx as [Hx|Hx]; apply in_app_iff; cbn; auto.
Qed.

(** ** Extension codes *)
(** Every byte of the table gets one non-empty code over the digits below
    [n_ext], different bytes get different codes. *)
Record good_codes (n_ext : nat) (bytes : list byte) (encs : list (byte * list nat)) : Prop := {
  gc_bytes : Permutation (map fst encs) bytes;
  gc_nonempty : forall e, In e encs -> snd e <> [];
  gc_digits : forall e d, In e encs -> In d (snd e) -> d < n_ext;
  gc_distinct : NoDup (map snd encs)
}.

Lemma NoDup_map_inj {A B} (f : A -> B) l : (forall x y, f x = f y -> x = y) -> NoDup l -> NoDup (map f l).
Proof.
  intros Hf. induction 1 as [|x l Hx _ IH]; cbn; constructor; [|exact IH].
  intros H. apply in_map_iff in H as (y & E & Hy). apply Hf in E as ->. auto.
Qed.

Lemma good_codes_direct n_ext (counts : ctable) : length counts <= n_ext ->
  good_codes n_ext (map fst counts) (map (fun p => (fst (snd p), [fst p])) (enum counts)).
Proof.
  intros H. split.
  - rewrite map_map. cbn [fst]. rewrite <- (map_map snd fst).
    unfold enum. rewrite map_snd_enum_from. reflexivity.
  - intros e He. apply in_map_iff in He as (x & <- & _). discriminate.
  - intros e d He Hd. apply in_map_iff in He as ((i, x) & <- & Hx). destruct Hd as [<-|[]].
    apply in_enum in Hx. cbn. assert (i < length counts) by (apply nth_error_Some; congruence). lia.
  - rewrite map_map. cbn [snd]. rewrite <- (map_map fst (fun i => [i])). unfold enum.
    rewrite map_fst_enum_from. apply NoDup_map_inj; [congruence|apply seq_NoDup].
Qed.

(** One split: the top byte gets the code [i], the others codes that start with [i]. *)
Lemma good_codes_group n_ext i (g : ctable) top (g' : ctable) encs :
  i < n_ext -> removed g top g' -> good_codes n_ext (map fst g') encs ->
  good_codes n_ext (map fst g) ((top, [i]) :: map (fun e => (fst e, i :: snd e)) encs) /\
  forall e, In e ((top, [i]) :: map (fun e => (fst e, i :: snd e)) encs) -> exists r, snd e = i :: r.
Proof.
  intros Hi Hr [H1 H2 H3 H4]. split; [split|].
  - cbn [map fst]. rewrite map_map. cbn [fst]. rewrite H1. symmetry. apply removed_perm; exact Hr.
  - intros e [<-|He]; [discriminate|]. apply in_map_iff in He as (x & <- & _). discriminate.
  - intros e d [<-|He] Hd; cbn in Hd; [destruct Hd as [<-|[]]; exact Hi|].
    apply in_map_iff in He as (x & <- & Hx). destruct Hd as [<-|Hd]; [exact Hi|eapply H3; eauto].
  - cbn [map snd]. rewrite map_map. cbn [snd]. rewrite <- (map_map snd (cons i)). constructor.
    + intros Hn. apply in_map_iff in Hn as (x & E & Hx). injection E as ->.
      apply in_map_iff in Hx as (e & E & He). exact (H2 e He E).
    + apply NoDup_map_inj; [congruence|exact H4].
  - intros e [<-|He]; [eexists; reflexivity|]. apply in_map_iff in He as (x & <- & _). eexists; reflexivity.
Qed.

Lemma NoDup_app_intro {A} (l1 l2 : list A) : NoDup l1 -> NoDup l2 ->
  (forall x, In x l1 -> In x l2 -> False) -> NoDup (l1 ++ l2).
Proof.
  induction 1 as [|x l1 Hx _ IH]; cbn; intros H2 H; [exact H2|]. constructor.
  - rewrite in_app_iff. intros [Hi|Hi]; [auto|]. apply (H x); [left; reflexivity|exact Hi].
  - apply IH; [exact H2|]. intros y Hy. apply H. right; exact Hy.
Qed.

Lemma good_codes_app n_ext k b1 b2 e1 e2 :
  good_codes n_ext b1 e1 -> good_codes n_ext b2 e2 ->
  (forall e, In e e1 -> exists d r, snd e = d :: r /\ d < k) ->
  (forall e, In e e2 -> exists r, snd e = k :: r) ->
  good_codes n_ext (b1 ++ b2) (e1 ++ e2).
Proof.
  intros [A1 A2 A3 A4] [B1 B2 B3 B4] H1 H2. split.
  - rewrite map_app. apply Permutation_app; assumption.
  - intros e He. apply in_app_iff in He as [He|He]; auto.
  - intros e d He. apply in_app_iff in He as [He|He]; eauto.
  - rewrite map_app. apply NoDup_app_intro; auto.
    intros x Hx Hy. apply in_map_iff in Hx as (e & <- & He). apply in_map_iff in Hy as (e' & E & He').
    destruct (H1 e He) as (d & r & Ed & Hd). destruct (H2 e' He') as (r' & Er'). rewrite Ed, Er' in E.
    injection E as E _. lia.
Qed.

Lemma ext_encoding_ok n_ext : 1 <= n_ext -> forall fuel counts, length counts <= fuel ->
  increasing counts -> positive counts ->
  exists encs, optimize_ext_encoding fuel counts n_ext = Ret encs /\
    good_codes n_ext (map fst counts) encs.
Proof.
  intros Hn. induction fuel as [|fuel IH]; intros counts Hf Hs Hp; cbn [optimize_ext_encoding];
    destruct (Nat.leb_spec (length counts) n_ext) as [Hl|Hl]; try lia;
    try (eexists; split; [reflexivity|apply good_codes_direct; exact Hl]).
  destruct (optimize_splits_ok counts n_ext Hn Hs) as (splits & groups & E & Hc & Hlen & HF).
  rewrite E. cbn [bind].
  assert (Hlg : length splits = n_ext) by (rewrite (Forall2_length _ _ _ HF), Hlen; lia).
  set (body := fun (encs : list (byte * list nat)) (p : nat * chars_split) =>
                 let '(i, sp) := p in
                 let encs := encs ++ [(cs_top sp, [i])] in
                 sub <- sub_table counts splits i sp ;;
                 match sub with
                 | None => Ret encs
                 | Some sub =>
                     sub_encs <- optimize_ext_encoding fuel sub n_ext ;;
                     Ret (encs ++ map (fun e => (fst e, i :: snd e)) sub_encs)
                 end).
  assert (G : forall done todo gd gt encs, splits = done ++ todo -> groups = gd ++ gt ->
     length done = length gd -> good_codes n_ext (map fst (concat gd)) encs ->
     (forall e, In e encs -> exists d r, snd e = d :: r /\ d < length done) ->
     exists r, mfold body (enum_from (length done) todo) encs = Ret r /\ good_codes n_ext (map fst counts) r).
  { intros done todo; revert done. induction todo as [|sp todo IHt]; intros done gd gt encs Es Eg Hl2 Hg Hd.
    - cbn. exists encs. split; [reflexivity|].
      assert (gt = []). { apply (f_equal (@length _)) in Eg, Es. rewrite app_length in *. cbn in Es.
        pose proof (Forall2_length _ _ _ HF). destruct gt; [reflexivity|cbn in *; lia]. }
      subst gt. rewrite app_nil_r in Eg. rewrite <- Hc, Eg. exact Hg.
    - destruct gt as [|g gt].
      { exfalso. apply (f_equal (@length _)) in Eg, Es. rewrite app_length in *. cbn in *.
        pose proof (Forall2_length _ _ _ HF). lia. }
      cbn [enum_from mfold]. unfold body at 1.
      assert (Hi : length done < n_ext) by (rewrite <- Hlg, Es, app_length; cbn; lia).
      destruct (sub_table_ok counts splits groups (length done) sp g Hs Hp Hc HF) as (g' & Hr & Est).
      { rewrite Es, nth_error_app2, Nat.sub_diag by lia. reflexivity. }
      { rewrite Eg, Hl2, nth_error_app2, Nat.sub_diag by lia. reflexivity. }
      rewrite Est. cbn [bind].
      assert (Hgin : increasing g /\ positive g).
      { rewrite <- Hc, Eg in Hs, Hp. rewrite concat_app in *. cbn [concat] in *. split.
        - apply SS_app in Hs as (_ & Hs & _). apply SS_app in Hs as (Hs & _). exact Hs.
        - intros x Hx. apply Hp. apply in_app_iff; right; apply in_app_iff; left; exact Hx. }
      assert (Hg' : exists sub_encs, match g' with [] => sub_encs = [] | _ =>
                 optimize_ext_encoding fuel g' n_ext = Ret sub_encs end /\ good_codes n_ext (map fst g') sub_encs).
      { destruct g' as [|x g'].
        - exists []. split; [reflexivity|]. split; cbn; try contradiction; constructor.
        - apply IH.
          + assert (length (x :: g') < length counts); [|cbn in *; lia].
            apply removed_perm in Hr as (_ & Hr). rewrite <- Hc, Eg, concat_app, app_length. cbn [concat].
            rewrite app_length, Hr. cbn. lia.
          + eapply removed_increasing; [exact Hr|apply Hgin].
          + eapply removed_positive; [exact Hr|apply Hgin]. }
      destruct Hg' as (sub_encs & Hsub & Hgs).
      destruct (good_codes_group n_ext _ g (cs_top sp) g' sub_encs Hi Hr Hgs) as (Hgg & Hstart).
      set (encs' := encs ++ (cs_top sp, [length done]) :: map (fun e => (fst e, length done :: snd e)) sub_encs).
      assert (Eb : (match (match g' with [] => None | _ => Some g' end) with
                 | None => Ret (encs ++ [(cs_top sp, [length done])])
                 | Some sub => sub_encs <- optimize_ext_encoding fuel sub n_ext ;;
                     Ret ((encs ++ [(cs_top sp, [length done])]) ++ map (fun e => (fst e, length done :: snd e)) sub_encs)
                 end) = Ret encs').
      { unfold encs'. destruct g' as [|x g']; [subst sub_encs; reflexivity|].
        rewrite Hsub. cbn [bind]. rewrite <- app_assoc. reflexivity. }
      rewrite Eb. cbn [bind].
      replace (S (length done)) with (length (done ++ [sp])) by (rewrite app_length; cbn; lia).
      apply (IHt (done ++ [sp]) (gd ++ [g]) gt encs').
      + rewrite <- app_assoc. exact Es.
      + rewrite <- app_assoc. exact Eg.
      + rewrite !app_length. cbn. lia.
      + rewrite concat_app, map_app. cbn [concat]. rewrite app_nil_r. unfold encs'.
        apply (good_codes_app n_ext (length done)); auto.
      + intros e He. unfold encs' in He. rewrite app_length. cbn [length].
        apply in_app_iff in He as [He|He].
        * destruct (Hd e He) as (d & r & Er & Hlt). exists d, r. split; [exact Er|lia].
        * destruct (Hstart e He) as (r & Er). exists (length done), r. split; [exact Er|lia]. }
  apply (G [] splits [] groups []); auto.
  - split; cbn; try contradiction; constructor.
  - intros e [].
Qed.
