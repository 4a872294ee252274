(** * The older optimizer: the values of the candidates. *)
From Verif Require Import Base BaseLemmas LegacyModel LegacySpec LegacyTok PropLegacyTok LegacyOptModel LegacyOptProof LegacyBytesProof LegacyPairs.
From Coq Require Import ZArith Sorted Permutation.

Lemma key_get_in m k c : NoDup (map fst m) -> In (k, c) m -> key_get m k = c.
Proof.
  induction m as [|[k0 c0] m IH]; intros Hnd Hin; [destruct Hin|]. cbn [map fst] in Hnd. apply NoDup_cons_iff in Hnd as (Hk & Hnd).
  rewrite key_get_cons. destruct Hin as [E|Hin].
  - injection E as -> ->. rewrite N.eqb_refl.
    assert (key_get m k = 0); [|lia]. clear - Hk. induction m as [|[k0 c0] m IH]; [reflexivity|]. rewrite key_get_cons.
    cbn in Hk. destruct (N.eqb_spec k0 k) as [->|_]; [exfalso; apply Hk; left; reflexivity|].
    apply IH. intros H; apply Hk; right; exact H.
  - destruct (N.eqb_spec k0 k) as [->|_]; [|apply IH; assumption].
    exfalso. apply Hk. apply (in_map fst) in Hin. exact Hin.
Qed.

Lemma key_get_pos m k : 0 < key_get m k -> exists c, In (k, c) m.
Proof.
  induction m as [|[k0 c0] m IH]; [cbn; lia|]. rewrite key_get_cons. destruct (N.eqb_spec k0 k) as [->|_].
  - intros _. exists c0. left; reflexivity.
  - intros H. destruct (IH H) as (c & Hc). exists c. right; exact Hc.
Qed.

Lemma mmap_nodup {A B} (g : A -> outcome (bstr * B)) l r : mmap g l = Ret r -> NoDup l ->
  (forall a b va vb, In a l -> In b l -> g a = Ret va -> g b = Ret vb -> fst va = fst vb -> a = b) -> NoDup (map fst r).
Proof.
  intros E. apply mmap_ret in E. induction E as [|a v l r Ha Hr IH]; intros Hnd H; [constructor|].
  apply NoDup_cons_iff in Hnd as (Hin & Hnd). cbn [map]. constructor.
  - intros Hv. apply in_map_iff in Hv as (v' & Ev & Hv). apply Hin.
    assert (exists b, In b l /\ g b = Ret v') as (b & Hb & Eb).
    { clear - Hr Hv. induction Hr as [|b v0 l r Hb Hr IH]; [destruct Hv|]. destruct Hv as [<-|Hv].
      - exists b. split; [left; reflexivity|exact Hb].
      - destruct (IH Hv) as (b' & H1 & H2). exists b'. split; [right; exact H1|exact H2]. }
    rewrite (H a b v v'); auto; [left; reflexivity|right; exact Hb].
  - apply IH; [exact Hnd|]. intros x y vx vy Hx Hy. apply H; right; assumption.
Qed.

Lemma mmap_in {A B} (g : A -> outcome B) l r : mmap g l = Ret r -> forall v, In v r <-> exists a, In a l /\ g a = Ret v.
Proof.
  intros E. apply mmap_ret in E. induction E as [|a v l r Ha Hr IH]; intros v'; cbn.
  - split; [intros []|intros (a & [] & _)].
  - rewrite IH. split.
    + intros [<-|(b & Hb & Eb)]; [exists a; auto|exists b; auto].
    + intros (b & [<-|Hb] & Eb); [left; congruence|right; exists b; auto].
Qed.

Section Values.
Variable ts : lset.
Hypothesis Hok : l_ok ts.
Hypothesis Hn : ~ In [] (l_strings ts).
Hypothesis Hl : length (l_tokens ts) <= 256 * 256.
Variables (f : bstr -> list tidx) (samples : list bstr) (s : lstats).
Hypothesis Hf : forall w, l_canonical ts (f w) w.
Hypothesis T : l_total ts true f samples s.

Let adj := flat_map (fun w => l_adj (f w)) samples.

Lemma adj_small i j : In (i, j) adj -> i < length (l_tokens ts) /\ j < length (l_tokens ts).
Proof.
  intros H. destruct (adj_split ts f samples Hf i j H) as (_ & _ & _ & _ & x & y & Hx & Hy).
  assert (Hi : i < length (l_strings ts)) by (apply nth_error_Some; congruence).
  assert (Hj : j < length (l_strings ts)) by (apply nth_error_Some; congruence).
  unfold l_strings in Hi, Hj. rewrite map_length in Hi, Hj. auto.
Qed.

Lemma pair_count i j : In (i, j) adj -> key_get (ls_pairs s) (pair_key i j) =
  length (filter (fun ab => (fst ab =? i) && (snd ab =? j)) adj).
Proof.
  intros H. destruct (adj_small i j H) as (Hi & Hj). apply (C76_pair_counts ts f samples s i j T); auto.
  intros w; apply (Hf w).
Qed.

Lemma pair_value_key i j c x y : i < length (l_tokens ts) -> j < length (l_tokens ts) ->
  nth_error (l_strings ts) i = Some x -> nth_error (l_strings ts) j = Some y ->
  pair_value ts (pair_key i j, c) = Ret (x ++ y, c).
Proof.
  intros Hi Hj Hx Hy. unfold pair_value. cbn [fst snd]. rewrite pair_key_small by lia.
  assert (Ed : ((N.of_nat i * 65536 + N.of_nat j) / 65536 = N.of_nat i)%N).
  { rewrite N.div_add_l by lia. rewrite N.div_small by lia. lia. }
  assert (Em : ((N.of_nat i * 65536 + N.of_nat j) mod 65536 = N.of_nat j)%N).
  { rewrite N.add_comm, N.mod_add by lia. apply N.mod_small. lia. }
  rewrite Ed, Em, !Nat2N.id. unfold idx. unfold l_strings in Hx, Hy. rewrite nth_error_map in Hx, Hy.
  destruct (nth_error (l_tokens ts) i) as [a|]; [|discriminate]. destruct (nth_error (l_tokens ts) j) as [b|]; [|discriminate].
  cbn in Hx, Hy. injection Hx as <-. injection Hy as <-. reflexivity.
Qed.

(** A pair of the statistics. *)
Lemma pairs_sound k c : In (k, c) (ls_pairs s) ->
  exists i j x y, In (i, j) adj /\ k = pair_key i j /\ nth_error (l_strings ts) i = Some x /\ nth_error (l_strings ts) j = Some y /\
    pair_value ts (k, c) = Ret (x ++ y, c) /\ candidate ts f samples (x ++ y) c.
Proof.
  intros Hin. pose proof (key_get_in _ _ _ (lt_pairs_nodup _ _ _ _ _ T) Hin) as E. pose proof (lt_pairs_pos _ _ _ _ _ T _ _ Hin) as Hc.
  pose proof (lt_pairs _ _ _ _ _ T k) as Ek. rewrite E in Ek. fold adj in Ek.
  destruct (filter (has_key k) adj) as [|[i j] r] eqn:Efil; [cbn in Ek; lia|].
  assert (Hij : In (i, j) (filter (has_key k) adj)) by (rewrite Efil; left; reflexivity).
  apply filter_In in Hij as (Hij & Hk). unfold has_key in Hk. apply N.eqb_eq in Hk. cbn [fst snd] in Hk.
  destruct (adj_split ts f samples Hf i j Hij) as (_ & _ & _ & _ & x & y & Hx & Hy). destruct (adj_small i j Hij) as (Hi & Hj).
  exists i, j, x, y. split; [exact Hij|]. split; [congruence|]. split; [exact Hx|]. split; [exact Hy|]. split.
  - rewrite <- Hk. apply pair_value_key; assumption.
  - rewrite <- E, <- Hk, (pair_count i j Hij). apply cand_pair; assumption.
Qed.

Lemma pairs_complete i j : In (i, j) adj -> exists c, In (pair_key i j, c) (ls_pairs s).
Proof.
  intros Hij. apply key_get_pos. rewrite (pair_count i j Hij).
  assert (G : In (i, j) (filter (fun ab => (fst ab =? i) && (snd ab =? j)) adj)).
  { apply filter_In. split; [exact Hij|]. cbn. rewrite !Nat.eqb_refl. reflexivity. }
  destruct (filter _ adj); [destruct G|cbn; lia].
Qed.

Lemma candidate_pair x n : candidate ts f samples x n -> length x <> 1 ->
  exists i j, In (i, j) adj /\ pair_value ts (pair_key i j, n) = Ret (x, n) /\ In (pair_key i j, n) (ls_pairs s).
Proof.
  intros H Hx1. pose proof H as H0. destruct H as [b Hb|i j x y Hij Hx Hy]; [cbn in Hx1; lia|].
  destruct (pairs_complete i j Hij) as (c & Hc). destruct (adj_small i j Hij) as (Hi & Hj).
  assert (Hv : forall c, pair_value ts (pair_key i j, c) = Ret (x ++ y, c)) by (intros c'; apply pair_value_key; assumption).
  destruct (pairs_sound _ _ Hc) as (_ & _ & x' & y' & _ & _ & _ & _ & Hv' & Hcand).
  rewrite Hv in Hv'. injection Hv' as Ev. rewrite <- Ev in Hcand.
  pose proof (candidate_fun ts Hok Hn f samples Hf _ _ _ H0 Hcand) as En.
  exists i, j. split; [exact Hij|]. split; [apply Hv|]. rewrite En. exact Hc.
Qed.

Lemma candidate_length x n : candidate ts f samples x n -> length x = 1 -> exists b, x = [b] /\ In (LLit b) (flat_map f samples) /\ n = count_occ tidx_eq_dec (flat_map f samples) (LLit b).
Proof.
  intros H. destruct H as [b Hb|i j x y Hij Hx Hy]; [intros _; exists b; auto|]. intros El. exfalso.
  rewrite app_length in El.
  assert (x <> [] /\ y <> []) as (A & B) by (split; intros ->; apply Hn; eapply nth_error_In; eassumption).
  destruct x, y; cbn in El; try congruence; lia.
Qed.

(** The values of the pairs, in any order. *)
Lemma pair_values l : Permutation l (ls_pairs s) ->
  exists pv, mmap (pair_value ts) (pos_pairs l) = Ret pv /\ NoDup (map fst pv) /\
    forall x n, In (x, n) pv <-> candidate ts f samples x n /\ length x <> 1.
Proof.
  intros Hp. assert (Hin : forall kc, In kc (pos_pairs l) <-> In kc (ls_pairs s)).
  { intros [k c]. unfold pos_pairs. rewrite filter_In. split.
    - intros (H & _). eapply Permutation_in; eassumption.
    - intros H. split; [eapply Permutation_in; [apply Permutation_sym|]; eassumption|]. cbn [snd].
      apply Nat.ltb_lt. eapply lt_pairs_pos; eassumption. }
  destruct (mmap_total (pair_value ts) (pos_pairs l)) as (pv & E).
  { intros [k c] H. apply Hin in H. destruct (pairs_sound _ _ H) as (_ & _ & x & y & _ & _ & _ & _ & Ev & _). eauto. }
  exists pv. split; [exact E|]. split.
  - apply (mmap_nodup _ _ _ E).
    + apply NoDup_filter. eapply Permutation_NoDup; [apply Permutation_sym; exact Hp|].
      eapply NoDup_map_inv. apply (lt_pairs_nodup _ _ _ _ _ T).
    + intros [k c] [k' c'] v v' H H' Ev Ev' Ef. apply Hin in H, H'.
      destruct (pairs_sound _ _ H) as (i & j & x & y & Hij & Ek & Hx & Hy & E1 & C1).
      destruct (pairs_sound _ _ H') as (i' & j' & x' & y' & Hij' & Ek' & Hx' & Hy' & E2 & C2).
      rewrite E1 in Ev. rewrite E2 in Ev'. injection Ev as <-. injection Ev' as <-. cbn [fst] in Ef.
      pose proof C2 as C2'. rewrite <- Ef in C2'. pose proof (candidate_fun ts Hok Hn f samples Hf _ _ _ C1 C2') as <-.
      destruct (adj_split ts f samples Hf i j Hij) as (a & b & w & Hc & _).
      destruct (adj_split ts f samples Hf i' j' Hij') as (a' & b' & w' & Hc' & _).
      destruct (pair_unique ts Hok _ _ _ _ _ _ _ _ _ _ _ _ _ _ Hc Hc' Hx Hy Hx' Hy' Ef) as [<- <-]. congruence.
  - intros x n. rewrite (mmap_in _ _ _ E). split.
    + intros ([k c] & H & Ev). apply Hin in H. destruct (pairs_sound _ _ H) as (i & j & x' & y' & _ & _ & Hx & Hy & Ev' & Hc).
      rewrite Ev' in Ev. injection Ev as <- <-. split; [exact Hc|]. rewrite app_length.
      assert (x' <> [] /\ y' <> []) as (A & B) by (split; intros ->; apply Hn; eapply nth_error_In; eassumption).
      destruct x', y'; cbn; try congruence; lia.
    + intros (Hc & Hx). destruct (candidate_pair x n Hc Hx) as (i & j & _ & Hv & H).
      exists (pair_key i j, n). split; [apply Hin; exact H|exact Hv].
Qed.

Lemma literal_in b n : In (LLit b) (flat_map f samples) /\ n = count_occ tidx_eq_dec (flat_map f samples) (LLit b) <->
  n = nth (b2n b) (ls_literals s) 0 /\ 0 < n.
Proof.
  rewrite (lt_literals _ _ _ _ _ T). rewrite (count_occ_In tidx_eq_dec). split; intros (A & B); split; lia.
Qed.

(** The values of the literals. *)
Lemma literal_values_ok cost :
  NoDup (map fst (literal_values s cost)) /\
  forall x v, In (x, v) (literal_values s cost) <-> exists n, candidate ts f samples x n /\ length x = 1 /\ v = n * (cost - 1).
Proof.
  split.
  - unfold literal_values.
    assert (G : forall l, NoDup l -> (forall i, In i l -> i < 256) ->
      NoDup (map fst (flat_map (fun i => let n := nth i (ls_literals s) 0 in if 0 <? n then [([n2b i], n * (cost - 1))] else []) l)) /\
      forall x, In x (map fst (flat_map (fun i => let n := nth i (ls_literals s) 0 in if 0 <? n then [([n2b i], n * (cost - 1))] else []) l)) ->
        exists i, In i l /\ x = [n2b i]).
    { induction l as [|i l IH]; intros Hnd Hl'; cbn [flat_map]; [cbn; split; [constructor|intros x []]|].
      apply NoDup_cons_iff in Hnd as (Hi & Hnd). destruct IH as (IH1 & IH2); [exact Hnd|intros j Hj; apply Hl'; right; exact Hj|].
      cbv zeta. destruct (0 <? nth i (ls_literals s) 0); cbn [app map fst].
      - split.
        + constructor; [|exact IH1]. intros H. apply IH2 in H as (j & Hj & E). injection E as E.
          apply (f_equal b2n) in E. rewrite !b2n_n2b_small in E by (apply Hl'; auto with datatypes). subst. auto.
        + intros x [<-|Hx]; [exists i; auto with datatypes|]. destruct (IH2 x Hx) as (j & Hj & E). exists j; auto with datatypes.
      - split; [exact IH1|]. intros x Hx. destruct (IH2 x Hx) as (j & Hj & E). exists j; auto with datatypes. }
    apply G; [apply seq_NoDup|]. intros i Hi. apply in_seq in Hi. lia.
  - intros x v. unfold literal_values. rewrite in_flat_map. split.
    + intros (i & Hi & Hv). apply in_seq in Hi. cbv zeta in Hv. destruct (Nat.ltb_spec 0 (nth i (ls_literals s) 0)) as [Hp|]; [|destruct Hv].
      destruct Hv as [E|[]]. injection E as <- <-. exists (nth i (ls_literals s) 0). split; [|split; reflexivity].
      assert (E : nth i (ls_literals s) 0 = nth (b2n (n2b i)) (ls_literals s) 0) by (rewrite b2n_n2b_small by lia; reflexivity).
      rewrite E in *. destruct (proj2 (literal_in (n2b i) _) (conj eq_refl Hp)) as (H1 & H2). rewrite H2. apply cand_literal; exact H1.
    + intros (n & Hc & Hx & ->). destruct (candidate_length x n Hc Hx) as (b & -> & Hb). destruct (proj1 (literal_in b n) Hb) as (En & Hp).
      exists (b2n b). split; [apply in_seq; pose proof (b2n_lt b); lia|]. cbv zeta. rewrite <- En.
      destruct (Nat.ltb_spec 0 n); [|lia]. left. rewrite n2b_b2n. reflexivity.
Qed.

End Values.
