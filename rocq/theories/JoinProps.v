(** Properties of join and of the enumeration of sizes. *)
From Coq Require Import List Arith Bool ZArith Lia.
From Verif Require Import Base JoinModel JoinSpec JoinProof JoinProof2 JoinProof3.
Import ListNotations.

(** ** C209 *)
(** Missing: an outer container that holds fewer containers than its static size, see [join_refuted]. *)
Theorem join_partial : forall A (dflt : A) d S N conts,
  length conts = N -> fit S conts -> enough conts 0 d ->
  join_ra dflt d S N conts = Ok (filled dflt (S * N) (concat conts)).
Proof. exact @join_ra_correct_lemma. Qed.
Print Assumptions join_partial.
Example join_example :
  length [[1;2];[];[3]] = 3 /\ fit 2 [[1;2];[];[3]] /\ enough [[1;2];[];[3]] 0 20 /\
  join_ra 0 20 2 3 [[1;2];[];[3]] = Ok [1;2;3;0;0;0].
Proof.
  split; [reflexivity|]. split; [intros c [<-|[<-|[<-|[]]]]; cbn; lia|]. split; [unfold enough; cbn; lia|].
  vm_compute; reflexivity.
Qed.

Theorem join_refuted : ~ (forall A (dflt : A) d S N conts,
  length conts <= N -> fit S conts -> enough conts 0 d ->
  join_ra dflt d S N conts = Ok (filled dflt (S * N) (concat conts))).
Proof. exact join_ra_refuted_lemma. Qed.
Print Assumptions join_refuted.

(** ** C210 *)
(** Missing: inner containers of static size 0, and no container at all with a separator, see
    [join_separated_refuted]. *)
Theorem join_separated_partial : forall A (dflt : A) d S N conts literal sep,
  length conts = N -> fit S conts -> 0 < S -> 0 < N \/ sep = [] -> enough conts (length sep) d ->
  join_sep_ra dflt d S N conts literal sep
  = Ok (filled dflt ((S + length sep) * N - length sep) (joined sep conts)).
Proof. exact @join_sep_ra_partial_lemma. Qed.
Print Assumptions join_separated_partial.
Example join_separated_example :
  fit 2 [[1;2];[];[3]] /\ enough [[1;2];[];[3]] 2 30 /\
  join_sep_ra 0 30 2 3 [[1;2];[];[3]] true [8;9] = Ok [1;2;8;9;8;9;3;0;0;0].
Proof.
  split; [intros c [<-|[<-|[<-|[]]]]; cbn; lia|]. split; [unfold enough; cbn; lia|].
  vm_compute; reflexivity.
Qed.

Theorem join_separated_refuted :
  ~ (forall A (dflt : A) d S N conts literal sep, length conts = N -> fit S conts -> 0 < N ->
       enough conts (length sep) d ->
       exists out t, join_sep_ra dflt d S N conts literal sep = Ok out /\ out = joined sep conts ++ t)
  /\ ~ (forall A (dflt : A) d S N conts literal sep, length conts = N -> fit S conts -> 0 < S ->
       enough conts (length sep) d ->
       exists out, join_sep_ra dflt d S N conts literal sep = Ok out).
Proof. exact join_sep_ra_refuted_lemma. Qed.
Print Assumptions join_separated_refuted.

(** ** C211 *)
Theorem join_forward : forall A (dflt : A) d S N conts,
  length conts <= N -> fit S conts -> enough conts 0 d ->
  join_fwd dflt d S N conts = Ok (filled dflt (S * N) (concat conts)).
Proof. exact @join_fwd_correct_lemma. Qed.
Print Assumptions join_forward.

(** Missing: containers that are not full, and separators that are string literals, see
    [join_forward_separated_refuted]. *)
Theorem join_forward_separated_partial : forall A (dflt : A) d S N conts sep,
  length conts = N -> full S conts -> 0 < S -> 0 < N \/ sep = [] -> enough conts (length sep + 1) d ->
  join_sep_fwd dflt d S N conts false sep = Ok (joined sep conts).
Proof. exact @join_sep_fwd_partial_lemma. Qed.
Print Assumptions join_forward_separated_partial.

(** what it computes in general: a separator, with the terminating character of a literal, behind every
    container *)
Theorem join_forward_separated_all : forall A (dflt : A) d S N conts literal sep,
  0 < S -> 0 < N \/ sep = [] -> enough conts (length sep + 1) d ->
  let r := (S + length sep) * N - length sep in
  join_sep_fwd dflt d S N conts literal sep
  = Ok (filled dflt r (firstn r (concat (map (fun c => c ++ (if literal then sep ++ [dflt] else sep)) conts)))).
Proof. exact @join_sep_fwd_lemma. Qed.
Print Assumptions join_forward_separated_all.
Example join_forward_example :
  full 2 [[1;2];[3;4]] /\ enough [[1;2];[3;4]] 3 30 /\
  join_sep_fwd 0 30 2 2 [[1;2];[3;4]] false [8;9] = Ok [1;2;8;9;3;4] /\
  join_fwd 0 30 2 3 [[1;2];[3]] = Ok [1;2;3;0;0;0].
Proof.
  split; [intros c [<-|[<-|[]]]; reflexivity|]. split; [unfold enough; cbn; lia|].
  split; vm_compute; reflexivity.
Qed.

Theorem join_forward_separated_refuted :
  ~ (forall A (dflt : A) d S N conts sep, length conts = N -> fit S conts -> 0 < S -> 0 < N ->
       enough conts (length sep + 1) d ->
       join_sep_fwd dflt d S N conts false sep = join_sep_ra dflt d S N conts false sep)
  /\ ~ (forall A (dflt : A) d S N conts sep, length conts = N -> full S conts -> 0 < S -> 0 < N ->
       enough conts (length sep + 1) d ->
       join_sep_fwd dflt d S N conts true sep = join_sep_ra dflt d S N conts true sep).
Proof. exact join_sep_fwd_refuted_lemma. Qed.
Print Assumptions join_forward_separated_refuted.

(** ** C212 *)
(** Missing: strings that contain the null character, see [join_strings_refuted]. *)
Theorem join_strings_partial : forall A (dflt : A) eqb d S N conts, (forall x y, eqb x y = true <-> x = y) ->
  length conts = N -> fit S conts -> enough conts 0 d -> (forall c, In c conts -> ~ In dflt c) ->
  exists args, join_ra dflt d S N conts = Ok args /\ make_string dflt eqb args = concat conts.
Proof. exact @join_string_plain_lemma. Qed.
Print Assumptions join_strings_partial.

Theorem join_strings_separated_partial : forall A (dflt : A) eqb d S N conts literal sep,
  (forall x y, eqb x y = true <-> x = y) ->
  length conts = N -> fit S conts -> 0 < S -> 0 < N \/ sep = [] -> enough conts (length sep) d ->
  ~ In dflt sep -> (forall c, In c conts -> ~ In dflt c) ->
  exists args, join_sep_ra dflt d S N conts literal sep = Ok args /\ make_string dflt eqb args = joined sep conts.
Proof. exact @join_string_lemma. Qed.
Print Assumptions join_strings_separated_partial.
Example join_strings_example :
  (exists args, join_sep_ra 0 30 4 3 [[1];[2;3];[]] true [9] = Ok args /\ make_string 0 Nat.eqb args = [1;9;2;3;9])
  /\ make_string 0 Nat.eqb [1;2;0;3] = [1;2].
Proof. split; [eexists; split; vm_compute; reflexivity|reflexivity]. Qed.

Theorem join_strings_refuted : ~ (forall A (dflt : A) eqb d S N conts, (forall x y, eqb x y = true <-> x = y) ->
  length conts = N -> full S conts -> enough conts 0 d ->
  exists args, join_ra dflt d S N conts = Ok args /\ make_string dflt eqb args = concat conts).
Proof. exact join_string_refuted_lemma. Qed.
Print Assumptions join_strings_refuted.

(** ** C213 *)
Theorem size_enumed_correct : forall d szs sep omit_last, 2 * length szs < d ->
  size_enumed d szs sep omit_last = Ok (interleaved sep szs omit_last).
Proof. exact size_enumed_correct_lemma. Qed.
Print Assumptions size_enumed_correct.
Example size_enumed_example :
  size_enumed 9 [4;0;5] 2 true = Ok [4;2;0;2;5] /\ size_enumed 9 [4;0;5] 2 false = Ok [4;2;0;2;5;2] /\
  size_enumed 9 [] 2 true = Ok [].
Proof. repeat split. Qed.

Theorem size_enum_step : forall it,
  place (se_next it) = (place it + 1)%Z /\ se_prev (se_next it) = it.
Proof. exact se_next_place_lemma. Qed.
Print Assumptions size_enum_step.
Theorem size_enum_back : forall it,
  place (se_prev it) = (place it - 1)%Z /\ se_next (se_prev it) = it.
Proof. exact se_prev_place_lemma. Qed.
Print Assumptions size_enum_back.
Theorem size_enum_equal : forall x y, se_eqb x y = true <-> place x = place y.
Proof. exact se_eqb_place_lemma. Qed.
Print Assumptions size_enum_equal.
Theorem size_enum_less : forall x y, se_ltb x y = true <-> (place x < place y)%Z.
Proof. exact se_ltb_place_lemma. Qed.
Print Assumptions size_enum_less.

(** Missing: the other arguments, for which the operators are wrong, see [size_enum_refuted]. *)
Theorem size_enum_plus_partial : forall it n,
  place (se_plus it n) = (place it + n)%Z <->
  (Z.even (n + (if is_sep it then 1 else 0)) = true \/ 0 <= n + (if is_sep it then 1 else 0))%Z.
Proof. exact se_plus_place_lemma. Qed.
Print Assumptions size_enum_plus_partial.
Theorem size_enum_minus_partial : forall it n,
  place (se_minus it n) = (place it - n)%Z <->
  (Z.even (n - (if is_sep it then 1 else 0)) = true \/ n - (if is_sep it then 1 else 0) <= 0)%Z.
Proof. exact se_minus_place_lemma. Qed.
Print Assumptions size_enum_minus_partial.
Theorem size_enum_difference_partial : forall x y,
  se_diff x y = (place x - place y)%Z <->
  (current x - current y = 2 * ((if is_sep y then 1 else 0) - (if is_sep x then 1 else 0)))%Z.
Proof. exact se_diff_place_lemma. Qed.
Print Assumptions size_enum_difference_partial.
Theorem size_enum_index_partial : forall szs sep it n, (0 <= n + (if is_sep it then 1 else 0))%Z ->
  if is_sep (se_plus it n)
  then se_deref szs sep (se_plus it n) = Ok sep /\ se_index szs it n = rdz szs (current (se_plus it n))
  else se_index szs it n = se_deref szs sep (se_plus it n).
Proof. exact se_index_lemma. Qed.
Print Assumptions size_enum_index_partial.
Theorem size_enumed_size_partial : forall n sep szs, length szs = n ->
  se_size n false = Z.of_nat n /\ length (interleaved sep szs false) = 2 * n
  /\ (0 < n -> se_size n true = (Z.of_nat n - 2)%Z /\ length (interleaved sep szs true) = 2 * n - 1).
Proof. exact se_size_lemma. Qed.
Print Assumptions size_enumed_size_partial.
Example size_enum_place_example :
  se_plus (Sit 2 true) 3 = Sit 4 false /\ place (Sit 2 true) = 5%Z /\ place (Sit 4 false) = 8%Z /\
  se_minus (Sit 4 false) 2 = Sit 3 false /\ se_minus (Sit 4 false) 3 = Sit 3 true.
Proof. repeat split. Qed.

Theorem size_enum_refuted :
  ~ (forall it n, (0 <= n)%Z -> place (se_minus it n) = (place it - n)%Z)
  /\ ~ (forall x y, se_diff x y = (place x - place y)%Z)
  /\ ~ (forall szs sep it n, (0 <= n)%Z -> se_index szs it n = se_deref szs sep (se_plus it n))
  /\ ~ (forall szs sep omit, se_size (length szs) omit = Z.of_nat (length (interleaved sep szs omit))).
Proof. exact size_enum_refuted_lemma. Qed.
Print Assumptions size_enum_refuted.
