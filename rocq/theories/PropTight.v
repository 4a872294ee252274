(** * Statements added because wrong programs got through the earlier ones. *)
From Coq Require Import String Ascii.
From Verif Require Import Base BaseLemmas TokenSetModel TokenizerModel TokSpec BatchModel PropJson Shaped CacheModel PropCache ArgsModel.

(** ** C15: field by field

    An answer to a request has all the fields of a tokenization from scratch;
    only the pair counts are left out, and only where they were not asked for. *)
Theorem C15_answers_in_full : forall n total samples init h c,
  1 <= n -> history n total samples init h c ->
  (forall r a, In (r, a) h -> exists ss, shaped (requested r) ss) ->
  forall r a, In (r, a) h ->
  exists ts' s, ts_sort (requested r) = Ret ts' /\ tokenize_file_sync ts' samples init = Ret s /\
    st_token_set a = st_token_set s /\ total_tokens a = total_tokens s /\ initial_size a = initial_size s /\
    scanned_bytes a = scanned_bytes s /\ token_counts a = token_counts s /\ seq_counts a = seq_counts s /\
    (r = WithPairs (requested r) /\ pair_counts a = pair_counts s \/ r = NoPairs (requested r) /\ pair_counts a = []).
Proof.
  intros n total samples init h c Hn H Hs r a Hi.
  destruct (C15_cache_is_transparent n total samples init h c Hn H Hs r a Hi) as (ts' & s & E1 & E2 & ->).
  exists ts', s. split; [exact E1|]. split; [exact E2|]. destruct r as [ts|ts]; cbn; repeat (split; [reflexivity|]); auto.
Qed.

(** ** C96: where a file goes

    A file name is put below the directory, with one slash in between. *)
Theorem C96_path_below_directory : forall d name,
  (d = ""%string -> join d name = name) /\
  (forall e, d = (e ++ "/")%string -> join d name = (e ++ "/" ++ name)%string) /\
  (d <> ""%string -> (forall e, d <> (e ++ "/")%string) -> join d name = (d ++ "/" ++ name)%string).
Proof.
  assert (A : forall a b c, ((a ++ b) ++ c = a ++ (b ++ c))%string) by (induction a as [|x a IH]; intros b c; cbn; congruence).
  assert (S : forall d, ends_with_slash d = true <-> exists e, d = (e ++ "/")%string).
  { induction d as [|x d IH]; [split; [discriminate|intros ([|] & H); discriminate]|].
    destruct d as [|y d].
    - cbn. rewrite Ascii.eqb_eq. split.
      + intros ->. exists ""%string. reflexivity.
      + intros ([|z e] & H); cbn in H; injection H as ->; [reflexivity|]. destruct e; discriminate.
    - change (ends_with_slash (String x (String y d))) with (ends_with_slash (String y d)). rewrite IH. split.
      + intros (e & ->). exists (String x e). reflexivity.
      + intros ([|z e] & H); cbn in H; injection H as _ H; [discriminate|]. exists e. exact H. }
  intros d name. split; [intros ->; reflexivity|]. split.
  - intros e ->. assert (E : ends_with_slash (e ++ "/") = true) by (apply S; eauto).
    unfold join. rewrite E. destruct (e ++ "/")%string eqn:F; [destruct e; discriminate|]. rewrite <- F, A. reflexivity.
  - intros Hd Hn. unfold join. destruct d as [|x d]; [contradiction|].
    destruct (ends_with_slash (String x d)) eqn:E; [|reflexivity]. exfalso. apply S in E as (e & E). exact (Hn e E).
Qed.

(** Different names give different paths. *)
Theorem C96_paths_differ : forall d a b, join d a = join d b -> a = b.
Proof.
  assert (I : forall e a b, (e ++ a = e ++ b)%string -> a = b) by (induction e as [|x e IH]; intros a b H; cbn in H; [exact H|injection H as H; exact (IH _ _ H)]).
  intros d a b. unfold join. destruct d as [|x d]; [auto|]. destruct (ends_with_slash (String x d)); intros H; apply I in H; [exact H|].
  cbn in H. injection H as H. exact H.
Qed.
