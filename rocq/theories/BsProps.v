(** Properties of bitsets.  [t] is unsigned long; [cst] stands for the const overloads. *)
From Coq Require Import List Arith ZArith Bool Lia.
From Verif Require Import Base BitModel BitSpec MtModel BsModel BsSpec BsProof BsProof2 BsProof3 BsProof4.
Import ListNotations.
Open Scope Z_scope.

(** ** C95: the operations on all bits *)
Theorem bitset_and t cst N w x f g : sgn t = false -> bits_are t N w f -> bits_are t N x g ->
  exists r, bs_and cst w x = Ok r /\ bits_are t N r (fun i => f i && g i)%bool.
Proof. exact (fun U => @zip_lemma t cst N Z.land andb w x f g (@and_word t U) Z.land_spec eq_refl). Qed.
Print Assumptions bitset_and.
Theorem bitset_or t cst N w x f g : sgn t = false -> bits_are t N w f -> bits_are t N x g ->
  exists r, bs_or cst w x = Ok r /\ bits_are t N r (fun i => f i || g i)%bool.
Proof. exact (fun U => @zip_lemma t cst N Z.lor orb w x f g (@or_word t U) Z.lor_spec eq_refl). Qed.
Print Assumptions bitset_or.
Theorem bitset_xor t cst N w x f g : sgn t = false -> bits_are t N w f -> bits_are t N x g ->
  exists r, bs_xor cst w x = Ok r /\ bits_are t N r (fun i => xorb (f i) (g i)).
Proof. exact (fun U => @zip_lemma t cst N Z.lxor xorb w x f g (@xor_word t U) Z.lxor_spec eq_refl). Qed.
Print Assumptions bitset_xor.
Theorem bitset_flip_all t cst N w f : sgn t = false -> bits_are t N w f ->
  exists r, bs_flip_all t N cst w = Ok r /\ bits_are t N r (fun i => negb (f i)).
Proof. exact (fun U => @flip_all_lemma t U cst N w f). Qed.
Print Assumptions bitset_flip_all.
Theorem bitset_set_all t cst N w f : sgn t = false -> bits_are t N w f ->
  exists r, bs_set_all t N cst w = Ok r /\ bits_are t N r (fun _ => true).
Proof. exact (fun U F => @set_all_lemma t U cst N w (@bits_raw t N w f F)). Qed.
Print Assumptions bitset_set_all.
Theorem bitset_reset_all t cst N w f : sgn t = false -> bits_are t N w f ->
  exists r, bs_reset_all cst w = Ok r /\ bits_are t N r (fun _ => false).
Proof. exact (fun U F => @fill_lemma t cst N w (@bits_raw t N w f F)). Qed.
Print Assumptions bitset_reset_all.
(** bitset<40> in two words of 32 bits: the flip of {0, 2, 33} *)
Example bitset_flip_all_ex : bs_flip_all (Ity false 2) 40 true [5; 2] = Ok [4294967290; 253] /\ bs_flip_all (Ity false 2) 40 false [5; 2] = Ok [4294967290; 253] /\
  bs_and true [5; 2] [4; 3] = Ok [4; 2] /\ bs_or false [5; 2] [4; 3] = Ok [5; 3] /\ bs_xor true [5; 2] [4; 3] = Ok [1; 1] /\
  bs_set_all (Ity false 2) 40 false [5; 2] = Ok [4294967295; 255] /\ bs_reset_all true [5; 2] = Ok [0; 0].
Proof. repeat split. Qed.
Example bitset_meets : bits_are (Ity false 2) 40 [5; 2] (fun i => Nat.eqb i 0 || Nat.eqb i 2 || Nat.eqb i 33)%bool.
Proof.
  split; [cbn; lia|]. split; [repeat constructor; discriminate|]. intros i I. assert (J : (i < 64)%nat) by exact I. clear I.
  do 64 (destruct i as [|i]; [reflexivity|]). lia.
Qed.

(** ** C96: shifts *)
Theorem bitset_left_shift t cst N w f p : sgn t = false -> bits_are t N w f ->
  exists r, bs_left t N cst w p = Ok r /\ bits_are t N r (fun i => Nat.leb p i && f (i - p)%nat)%bool.
Proof. exact (fun U => @left_lemma t U N w f p cst). Qed.
Print Assumptions bitset_left_shift.
Theorem bitset_right_shift t cst N w f p : sgn t = false -> bits_are t N w f ->
  exists r, bs_right t N cst w p = Ok r /\ bits_are t N r (fun i => Nat.ltb (i + p) N && f (i + p)%nat)%bool.
Proof. exact (fun U => @right_lemma t U N w f p cst). Qed.
Print Assumptions bitset_right_shift.
Example bitset_shift_ex : bs_left (Ity false 2) 40 true [5; 2] 33 = Ok [0; 10] /\ bs_left (Ity false 2) 40 false [5; 2] 6 = Ok [320; 128] /\
  bs_left (Ity false 2) 40 false [5; 2] 7 = Ok [640; 0] /\ bs_right (Ity false 2) 40 true [5; 2] 2 = Ok [2147483649; 0] /\ bs_right (Ity false 2) 40 false [5; 2] 32 = Ok [2; 0] /\
  bs_left (Ity false 2) 40 true [5; 2] 1000 = Ok [0; 0].
Proof. repeat split. Qed.

(** ** C97: one bit *)
Theorem bitset_set_bit t N w f pos v : sgn t = false -> bits_are t N w f ->
  ((N <= pos)%nat -> bs_set t N w pos v = Ok Out_of_range) /\
  ((pos < N)%nat -> exists r, bs_set t N w pos v = Ok (Val r) /\ unchecked_set t w pos v = Ok r /\ bits_are t N r (fun i => if Nat.eqb i pos then v else f i)).
Proof. exact (fun U F => @set_bit_lemma t U N w f pos v F). Qed.
Print Assumptions bitset_set_bit.
Theorem bitset_reset_bit t N w f pos : sgn t = false -> bits_are t N w f ->
  ((N <= pos)%nat -> bs_reset t N w pos = Ok Out_of_range) /\
  ((pos < N)%nat -> exists r, bs_reset t N w pos = Ok (Val r) /\ unchecked_reset t w pos = Ok r /\ bits_are t N r (fun i => if Nat.eqb i pos then false else f i)).
Proof. exact (fun U F => @reset_bit_lemma t U N w f pos F). Qed.
Print Assumptions bitset_reset_bit.
Theorem bitset_flip_bit t N w f pos : sgn t = false -> bits_are t N w f ->
  ((N <= pos)%nat -> bs_flip t N w pos = Ok Out_of_range) /\
  ((pos < N)%nat -> exists r, bs_flip t N w pos = Ok (Val r) /\ unchecked_flip t w pos = Ok r /\ bits_are t N r (fun i => if Nat.eqb i pos then negb (f pos) else f i)).
Proof. exact (fun U F => @flip_bit_lemma t U N w f pos F). Qed.
Print Assumptions bitset_flip_bit.
Theorem bitset_test_bit t N w f pos : sgn t = false -> bits_are t N w f ->
  ((N <= pos)%nat -> bs_test t N w pos = Ok Out_of_range) /\
  ((pos < N)%nat -> bs_test t N w pos = Ok (Val (f pos)) /\ unchecked_test t w pos = Ok (f pos)).
Proof. exact (fun U F => @test_bit_lemma t U N w f pos F). Qed.
Print Assumptions bitset_test_bit.
Example bitset_bit_ex : bs_set (Ity false 2) 40 [5; 2] 39 true = Ok (Val [5; 130]) /\ bs_set (Ity false 2) 40 [5; 2] 33 false = Ok (Val [5; 0]) /\
  bs_reset (Ity false 2) 40 [5; 2] 2 = Ok (Val [1; 2]) /\ bs_flip (Ity false 2) 40 [5; 2] 31 = Ok (Val [2147483653; 2]) /\
  bs_test (Ity false 2) 40 [5; 2] 33 = Ok (Val true) /\ bs_test (Ity false 2) 40 [5; 2] 40 = Ok Out_of_range.
Proof. repeat split. Qed.

(** ** C98: queries *)
Theorem bitset_equal t N w x f g : sgn t = false -> bits_are t N w f -> bits_are t N x g ->
  (bs_eq w x = true <-> forall i, (i < N)%nat -> f i = g i).
Proof. exact (fun U => @eq_lemma t N w x f g). Qed.
Print Assumptions bitset_equal.
Theorem bitset_any t N w f : sgn t = false -> bits_are t N w f -> (bs_any w = true <-> exists i, (i < N)%nat /\ f i = true).
Proof. exact (fun U => @any_lemma t N w f). Qed.
Print Assumptions bitset_any.
Theorem bitset_none t N w f : sgn t = false -> bits_are t N w f -> (bs_none w = true <-> forall i, (i < N)%nat -> f i = false).
Proof. exact (fun U => @none_lemma t N w f). Qed.
Print Assumptions bitset_none.
Theorem bitset_all t N w f : sgn t = false -> bits_are t N w f ->
  exists b, bs_all t N w = Ok b /\ (b = true <-> forall i, (i < N)%nat -> f i = true).
Proof. exact (fun U => @all_lemma t U N w f). Qed.
Print Assumptions bitset_all.
Theorem bitset_count il bi t d N w f : sgn t = false -> wid t <= tmax (int_t il) -> wid t < Z.of_nat d -> bits_are t N w f ->
  bs_count il bi t d w = Ok (how_many f N).
Proof. exact (fun U => @count_lemma t il bi d N w f). Qed.
Print Assumptions bitset_count.
Example bitset_query_ex : bs_eq [5; 2] [5; 2] = true /\ bs_eq [5; 2] [5; 3] = false /\ bs_any [0; 2] = true /\ bs_none [0; 0] = true /\
  bs_all (Ity false 2) 40 [4294967295; 255] = Ok true /\ bs_all (Ity false 2) 40 [4294967295; 127] = Ok false /\
  bs_count 2 true (Ity false 2) 33 [5; 2] = Ok 3 /\ bs_count 2 false (Ity false 2) 33 [4294967295; 255] = Ok 40.
Proof. repeat split. Qed.

(** ** C99: numbers *)
Theorem bitset_to_ulong t N w f : sgn t = false -> bits_are t N w f ->
  ((forall i, (Z.to_nat (wid t) <= i < N)%nat -> f i = false) -> ulong_words w = Val (number_of f N)) /\
  ((exists i, (Z.to_nat (wid t) <= i < N)%nat /\ f i = true) -> ulong_words w = Overflow_error).
Proof. exact (fun U => @ulong_lemma t U N w f). Qed.
Print Assumptions bitset_to_ulong.
Theorem bitset_to_ullong t N w f : sgn t = false -> wid t = 32 \/ wid t = 64 -> bits_are t N w f ->
  ((forall i, (64 <= i < N)%nat -> f i = false) -> ullong_words t w = Ok (Val (number_of f N))) /\
  ((exists i, (64 <= i < N)%nat /\ f i = true) -> ullong_words t w = Ok Overflow_error).
Proof. exact (fun U => @ullong_lemma t U N w f). Qed.
Print Assumptions bitset_to_ullong.
Theorem bitset_of_ullong_partial t N val : sgn t = false -> wid t = 32 \/ wid t = 64 /\ (N <= 64)%nat -> is_val (Ity false 3) val ->
  exists w, bs_of_ull t N val = Ok w /\ bits_are t N w (fun i => Z.testbit val (Z.of_nat i)).
Proof. exact (fun U => @of_ull_lemma t N val). Qed.
Print Assumptions bitset_of_ullong_partial.
(** with an unsigned long of 64 bits the second word is val >> 64 *)
Theorem bitset_of_ullong_refuted t N val : wid t = 64 -> (64 < N)%nat -> bs_of_ull t N val = UB.
Proof. exact (@of_ull_ub t N val). Qed.
Print Assumptions bitset_of_ullong_refuted.
Example bitset_number_ex : ulong_words [5; 0] = Val 5 /\ ulong_words [5; 2] = Overflow_error /\ ullong_words (Ity false 2) [5; 2] = Ok (Val 8589934597) /\
  ullong_words (Ity false 2) [5; 2; 1] = Ok Overflow_error /\ bs_of_ull (Ity false 2) 34 30064771077 = Ok [5; 3] /\ bs_of_ull (Ity false 3) 3 255 = Ok [7] /\
  number_of (fun i => Nat.eqb i 0 || Nat.eqb i 2 || Nat.eqb i 33)%bool 40 = 8589934597.
Proof. repeat split. Qed.

(** ** C100: strings *)
Theorem bitset_of_string t N s pos n zero one : sgn t = false -> let M := Nat.min N (Nat.min n (length s - pos)) in
  ((length s < pos)%nat -> bs_of_string t N s pos n zero one = Ok Out_of_range) /\
  ((pos <= length s)%nat -> (forall j, (j < M)%nat -> nth (pos + j) s 0 = zero \/ nth (pos + j) s 0 = one) ->
    exists w, bs_of_string t N s pos n zero one = Ok (Val w) /\ bits_are t N w (fun i => Nat.ltb i M && negb (nth (pos + M - 1 - i) s 0 =? zero))%bool) /\
  ((pos <= length s)%nat -> (exists j, (j < M)%nat /\ nth (pos + j) s 0 <> zero /\ nth (pos + j) s 0 <> one) ->
    bs_of_string t N s pos n zero one = Ok Invalid_argument).
Proof. exact (fun U => @of_string_lemma t U N s pos n zero one). Qed.
Print Assumptions bitset_of_string.
Theorem bitset_to_string t N w f zero one : sgn t = false -> bits_are t N w f -> exists l, bs_to_string t N w zero one = Ok l /\ length l = N /\
  forall j, (j < N)%nat -> nth j l 0 = if f (N - 1 - j)%nat then one else zero.
Proof. exact (fun U => @to_string_lemma t U N w f zero one). Qed.
Print Assumptions bitset_to_string.
Theorem bitset_string_round_trip t N w f zero one n : sgn t = false -> zero <> one -> (N <= n)%nat -> bits_are t N w f ->
  exists s, bs_to_string t N w zero one = Ok s /\ bs_of_string t N s 0 n zero one = Ok (Val w).
Proof. exact (fun U => @round_trip_lemma t U N w f zero one n). Qed.
Print Assumptions bitset_string_round_trip.
(** "x1101" from position 1 into bitset<3>: the first three characters, 110, are the number 6 *)
Example bitset_string_ex : bs_of_string (Ity false 2) 3 [120; 49; 49; 48; 49] 1 100 48 49 = Ok (Val [6]) /\ bs_of_string (Ity false 2) 3 [120; 49; 49; 48; 49] 0 100 48 49 = Ok Invalid_argument /\
  bs_of_string (Ity false 2) 3 [120] 2 100 48 49 = Ok Out_of_range /\ bs_to_string (Ity false 2) 5 [6] 48 49 = Ok [48; 48; 49; 49; 48].
Proof. repeat split. Qed.
