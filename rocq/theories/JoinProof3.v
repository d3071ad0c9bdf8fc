(** What join and size_enumed do not do. *)
From Coq Require Import List Arith Bool ZArith Lia.
From Verif Require Import Base JoinModel JoinSpec JoinProof JoinProof2.
Import ListNotations.

Lemma join_ra_refuted_lemma : ~ (forall A (dflt : A) d S N conts,
  length conts <= N -> fit S conts -> enough conts 0 d ->
  join_ra dflt d S N conts = Ok (filled dflt (S * N) (concat conts))).
Proof.
  intros H. specialize (H nat 0 40 2 4 [[1;2];[3;4]] ltac:(cbn; lia)).
  assert (F : fit 2 [[1;2];[3;4]]) by (intros c [<-|[<-|[]]]; cbn; lia).
  specialize (H F ltac:(unfold enough; cbn; lia)). vm_compute in H. discriminate.
Qed.

Lemma join_sep_ra_refuted_lemma :
  ~ (forall A (dflt : A) d S N conts literal sep, length conts = N -> fit S conts -> 0 < N ->
       enough conts (length sep) d ->
       exists out t, join_sep_ra dflt d S N conts literal sep = Ok out /\ out = joined sep conts ++ t)
  /\ ~ (forall A (dflt : A) d S N conts literal sep, length conts = N -> fit S conts -> 0 < S ->
       enough conts (length sep) d ->
       exists out, join_sep_ra dflt d S N conts literal sep = Ok out).
Proof.
  split; intros H.
  - specialize (H nat 0 40 0 2 [[];[]] false [7] eq_refl).
    assert (F : fit 0 [[];[]:list nat]) by (intros c [<-|[<-|[]]]; cbn; lia).
    destruct (H F ltac:(lia) ltac:(unfold enough; cbn; lia)) as (out & t & E & X). vm_compute in E. injection E as <-. discriminate.
  - specialize (H nat 0 40 3 0 [] false [7] eq_refl).
    destruct (H (fun c F => match F with end) ltac:(lia) ltac:(unfold enough; cbn; lia)) as (out & E). vm_compute in E. discriminate.
Qed.

Lemma join_sep_fwd_refuted_lemma :
  ~ (forall A (dflt : A) d S N conts sep, length conts = N -> fit S conts -> 0 < S -> 0 < N ->
       enough conts (length sep + 1) d ->
       join_sep_fwd dflt d S N conts false sep = join_sep_ra dflt d S N conts false sep)
  /\ ~ (forall A (dflt : A) d S N conts sep, length conts = N -> full S conts -> 0 < S -> 0 < N ->
       enough conts (length sep + 1) d ->
       join_sep_fwd dflt d S N conts true sep = join_sep_ra dflt d S N conts true sep).
Proof.
  split; intros H.
  - specialize (H nat 0 60 3 2 [[1];[2]] [7] eq_refl).
    assert (F : fit 3 [[1];[2]]) by (intros c [<-|[<-|[]]]; cbn; lia).
    specialize (H F ltac:(lia) ltac:(lia) ltac:(unfold enough; cbn; lia)). vm_compute in H. discriminate.
  - specialize (H nat 0 60 1 2 [[1];[2]] [7] eq_refl).
    assert (F : full 1 [[1];[2]]) by (intros c [<-|[<-|[]]]; reflexivity).
    specialize (H F ltac:(lia) ltac:(lia) ltac:(unfold enough; cbn; lia)). vm_compute in H. discriminate.
Qed.

Lemma join_string_refuted_lemma : ~ (forall A (dflt : A) eqb d S N conts, (forall x y, eqb x y = true <-> x = y) ->
  length conts = N -> full S conts -> enough conts 0 d ->
  exists args, join_ra dflt d S N conts = Ok args /\ make_string dflt eqb args = concat conts).
Proof.
  intros H. specialize (H nat 0 Nat.eqb 40 2 2 [[1;0];[2;3]] Nat.eqb_eq eq_refl).
  assert (F : full 2 [[1;0];[2;3]]) by (intros c [<-|[<-|[]]]; reflexivity).
  destruct (H F ltac:(unfold enough; cbn; lia)) as (args & E & X). vm_compute in E. injection E as <-. discriminate.
Qed.

Lemma size_enum_refuted_lemma :
  ~ (forall it n, (0 <= n)%Z -> place (se_minus it n) = (place it - n)%Z)
  /\ ~ (forall x y, se_diff x y = (place x - place y)%Z)
  /\ ~ (forall szs sep it n, (0 <= n)%Z -> se_index szs it n = se_deref szs sep (se_plus it n))
  /\ ~ (forall szs sep omit, se_size (length szs) omit = Z.of_nat (length (interleaved sep szs omit))).
Proof.
  repeat match goal with |- _ /\ _ => split end; intros H.
  - specialize (H (Sit 3 false) 1%Z ltac:(lia)). discriminate.
  - specialize (H (Sit 3 false) (Sit 1 false)). discriminate.
  - specialize (H [4;5] 9 (Sit 0 false) 1%Z ltac:(lia)). discriminate.
  - specialize (H [4;5] 9 true). discriminate.
Qed.
