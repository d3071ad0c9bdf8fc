(** Properties of interruptible folds, monotonicity predicates, sampling and the random sorts. *)
From Coq Require Import List Arith Bool ZArith Permutation Sorted Lia.
From Verif Require Import Base SearchModel SearchSpec OrderModel OrderSpec MutModel MutSpec FixModel FixSpec
  SmpModel SmpSpec SmpProof SmpProof2 SmpProof3.
Import ListNotations.

(** ** C203 *)
Theorem fold_while_correct : forall A T (op : T -> A -> T) (pred : T -> bool) (l : list A) d first last init,
  valid l first last -> depth_bound (last - first) <= d ->
  exists r, fold_while d l first last init op pred = Ok r /\ folded_while op pred (slice l first last) init r.
Proof. exact @fold_while_correct_lemma. Qed.
Print Assumptions fold_while_correct.

Theorem fold_until_correct : forall A T (op : T -> A -> T) (pred : T -> bool) (l : list A) d first last init,
  valid l first last -> depth_bound (last - first) <= d ->
  exists r, fold_until d l first last init op pred = Ok r /\
    folded_while op (fun a => negb (pred a)) (slice l first last) init r.
Proof. exact @fold_until_correct_lemma. Qed.
Print Assumptions fold_until_correct.

Example fold_while_example :
  valid [5;3;4;1;2;7] 1 6 /\ depth_bound 5 <= 8 /\
  fold_while 8 [5;3;4;1;2;7] 1 6 0 Nat.add (fun a => a <? 8) = Ok 8 /\
  fold_until 8 [5;3;4;1;2;7] 1 6 0 Nat.add (fun a => 9 <? a) = Ok 10 /\
  fold_while 8 [5;3;4;1;2;7] 1 6 9 Nat.add (fun a => a <? 8) = Ok 9.
Proof. split; [split; cbn; lia|]. split; [cbn; lia|]. repeat split. Qed.

(** ** C204 *)
Theorem is_increasing_correct : forall c d (l : list Z) first last,
  valid l first last -> depth_bound (last - first) <= d ->
  exists b, is_increasing c d l first last = Ok b /\ (b = true <-> monotone Z.le l first last).
Proof. exact is_increasing_correct_lemma. Qed.
Print Assumptions is_increasing_correct.

Theorem is_decreasing_correct : forall c d (l : list Z) first last,
  valid l first last -> depth_bound (last - first) <= d ->
  exists b, is_decreasing c d l first last = Ok b /\ (b = true <-> monotone Z.ge l first last).
Proof. exact is_decreasing_correct_lemma. Qed.
Print Assumptions is_decreasing_correct.

Theorem is_strictly_increasing_correct : forall c d (l : list Z) first last,
  valid l first last -> depth_bound (last - first) <= d ->
  exists b, is_strictly_increasing c d l first last = Ok b /\ (b = true <-> monotone Z.lt l first last).
Proof. exact is_strictly_increasing_correct_lemma. Qed.
Print Assumptions is_strictly_increasing_correct.

Theorem is_strictly_decreasing_correct : forall c d (l : list Z) first last,
  valid l first last -> depth_bound (last - first) <= d ->
  exists b, is_strictly_decreasing c d l first last = Ok b /\ (b = true <-> monotone Z.gt l first last).
Proof. exact is_strictly_decreasing_correct_lemma. Qed.
Print Assumptions is_strictly_decreasing_correct.

Example monotone_example :
  is_increasing true 8 [9;1;2;2;5]%Z 1 5 = Ok true /\ is_strictly_increasing true 8 [9;1;2;2;5]%Z 1 5 = Ok false /\
  is_decreasing false 8 [5;2;2;1]%Z 0 4 = Ok true /\ is_strictly_decreasing false 8 [5;2;2;1]%Z 0 4 = Ok false /\
  is_strictly_decreasing true 8 [5;2;1;-3]%Z 0 4 = Ok true /\ is_strictly_increasing false 8 []%Z 0 0 = Ok true.
Proof. repeat split. Qed.

(** ** C205 *)
Theorem sample_reservoir_correct : forall A G (dist : G -> nat -> nat -> nat * G) k (xs : list A) first last m out n g,
  in_interval dist -> valid xs first last -> out + Nat.min n (last - first) <= length m -> last - first < k ->
  exists s g', sample_reservoir dist k xs first last m out n g = Ok (paste m out s, out + length s, g') /\
    length s = Nat.min n (last - first) /\ sample_of (slice xs first last) s /\
    (last - first <= n -> s = slice xs first last /\ g' = g).
Proof. exact @sample_reservoir_correct_lemma. Qed.
Print Assumptions sample_reservoir_correct.

Theorem sample_selection_correct : forall A G (dist : G -> nat -> nat -> nat * G) k (xs : list A) first last m out n g,
  in_interval dist -> valid xs first last -> out + Nat.min n (last - first) <= length m -> last - first < k ->
  exists s g', sample_selection dist k xs first last m out n g = Ok (paste m out s, out + length s, g') /\
    length s = Nat.min n (last - first) /\ ordered_sample_of (slice xs first last) s.
Proof. exact @sample_selection_correct_lemma. Qed.
Print Assumptions sample_selection_correct.

Example sample_example :
  in_interval scripted /\
  sample_reservoir scripted 9 [10;11;12;13;14;15] 1 6 [0;0;0;0] 1 2 [2;0;1] = Ok ([0;14;15;0], 3, []) /\
  sample_selection scripted 9 [10;11;12;13;14;15] 1 6 [0;0;0;0] 1 2 [2;0;1;0;4] = Ok ([0;12;14;0], 3, [4]) /\
  sample_reservoir scripted 9 [10;11;12] 0 3 [0;0;0;0] 0 4 [5] = Ok ([10;11;12;0], 3, [5]).
Proof. split; [exact scripted_in|]. repeat split. Qed.

(** ** C206 *)
(** Of all sequences of draws that the population of N can ask for, the i-th element is in the
    sample for the fraction n / N. *)
Theorem sample_reservoir_uniform : forall N n k i, n <= N -> i < N -> N < k ->
  N * count (fun g => match sample_reservoir scripted k (seq 0 N) 0 N (repeat 0 n) 0 n g with
                      | Ok (s, _, _) => existsb (Nat.eqb i) s
                      | _ => false
                      end) (all_draws (seq (S n) (N - n)))
  = n * length (all_draws (seq (S n) (N - n))).
Proof. exact sample_reservoir_uniform_lemma. Qed.
Print Assumptions sample_reservoir_uniform.

Theorem sample_selection_uniform : forall N n k i, n <= N -> i < N -> N < k ->
  N * count (fun g => match sample_selection scripted k (seq 0 N) 0 N (repeat 0 n) 0 n g with
                      | Ok (s, _, _) => existsb (Nat.eqb i) s
                      | _ => false
                      end) (all_draws (map (fun j => N - j) (seq 0 N)))
  = n * length (all_draws (map (fun j => N - j) (seq 0 N))).
Proof. exact sample_selection_uniform_lemma. Qed.
Print Assumptions sample_selection_uniform.

Example sample_uniform_example :
  length (all_draws (seq 3 2)) = 12 /\
  count (fun g => match sample_reservoir scripted 9 (seq 0 4) 0 4 (repeat 0 2) 0 2 g with
                  | Ok (s, _, _) => existsb (Nat.eqb 3) s
                  | _ => false
                  end) (all_draws (seq 3 2)) = 6 /\
  length (all_draws (map (fun j => 4 - j) (seq 0 4))) = 24 /\
  count (fun g => match sample_selection scripted 9 (seq 0 4) 0 4 (repeat 0 1) 0 1 g with
                  | Ok (s, _, _) => existsb (Nat.eqb 2) s
                  | _ => false
                  end) (all_draws (map (fun j => 4 - j) (seq 0 4))) = 6.
Proof. repeat split. Qed.

(** ** C207 *)
(** The full statement: bogo_sort and bozo_sort terminate with the range sorted, for every
    engine.  False: [bogo_sort_refuted], [bozo_sort_refuted].  When they terminate, the range
    is a sorted rearrangement. *)
Theorem bogo_sort_partial : forall A G (dist : G -> nat -> nat -> nat * G) (comp : A -> A -> bool) c d k m first last g,
  in_interval dist -> valid m first last -> depth_bound (last - first) <= d -> last - first < d ->
  match bogo_sort dist comp c d k m first last g with
  | Ok (m', g') => rearranged m first last m' /\ sorted_range comp m' first last
  | UB => False
  | Fuel => True
  end.
Proof. exact @bogo_sort_partial_lemma. Qed.
Print Assumptions bogo_sort_partial.

(** A sorted range is left alone, and the engine with it. *)
Theorem bogo_sort_sorted : forall A G (dist : G -> nat -> nat -> nat * G) (comp : A -> A -> bool) c d k m first last g,
  valid m first last -> depth_bound (last - first) <= d -> 0 < k -> sorted_range comp m first last ->
  bogo_sort dist comp c d k m first last g = Ok (m, g).
Proof. exact @bogo_sort_sorted_lemma. Qed.
Print Assumptions bogo_sort_sorted.

(** Every sorted rearrangement is the outcome for some draws. *)
Theorem bogo_sort_reaches : forall A (comp : A -> A -> bool) c d k (m : list A) first last m',
  valid m first last -> depth_bound (last - first) <= d -> last - first < d -> 1 < k ->
  rearranged m first last m' -> sorted_range comp m' first last -> ~ sorted_range comp m first last ->
  exists script, bogo_sort scripted comp c d k m first last script = Ok (m', []).
Proof. exact @bogo_sort_reaches_lemma. Qed.
Print Assumptions bogo_sort_reaches.

(** For shuffle alone: every rearrangement is the outcome for some draws. *)
Theorem shuffle_reaches : forall A k (m : list A) first last m',
  valid m first last -> last - first < k -> rearranged m first last m' ->
  exists script, forall rest, shuffle scripted k m first last (script ++ rest) = Ok (m', rest).
Proof. exact @shuffle_reach. Qed.
Print Assumptions shuffle_reaches.

(** bozo_sort, when the engine happens never to draw the upper bound. *)
Theorem bozo_sort_partial : forall A G (dist : G -> nat -> nat -> nat * G) (comp : A -> A -> bool) c d k m first last g,
  (forall g, fst (dist g 0 (last - first)) < last - first) ->
  valid m first last -> depth_bound (last - first) <= d ->
  match bozo_sort dist comp c d k m first last g with
  | Ok (m', g') => rearranged m first last m' /\ sorted_range comp m' first last
  | UB => False
  | Fuel => True
  end.
Proof. exact @bozo_sort_partial_lemma. Qed.
Print Assumptions bozo_sort_partial.

Example bogo_sort_example :
  bogo_sort scripted Nat.ltb true 9 9 [7;3;1;2;0] 1 4 [1;0;0;1] = Ok ([7;1;2;3;0], []) /\
  bozo_sort scripted Nat.ltb true 9 9 [7;3;1;2;0] 1 4 [0;1;1;2] = Ok ([7;1;2;3;0], []).
Proof. repeat split. Qed.

(** An engine that always draws the lower bound never sorts two elements. *)
Theorem bogo_sort_refuted : forall k,
  in_interval (fun (g : unit) lo hi => (lo, g)) /\
  bogo_sort (fun (g : unit) lo hi => (lo, g)) Nat.ltb true 8 k [2; 1] 0 2 tt = Fuel.
Proof. exact bogo_sort_refuted_lemma. Qed.
Print Assumptions bogo_sort_refuted.

(** The position one past the end can be drawn. *)
Theorem bozo_sort_refuted : forall k, 0 < k ->
  in_interval scripted /\ bozo_sort scripted Nat.ltb true 8 k [2; 1] 0 2 [2; 0] = UB.
Proof. exact bozo_sort_refuted_lemma. Qed.
Print Assumptions bozo_sort_refuted.

(** ** C208 *)
(** The full statement: the fixed versions terminate with a sorted container.  Missing:
    termination, which depends on the draws. *)
Theorem fx_bogo_sort_partial : forall A G (dist : G -> nat -> nat -> nat * G) (comp : A -> A -> bool) d e (x : cont A) g,
  in_interval dist -> wf x -> depth_bound (csize x) <= e -> csize x <= e ->
  match fx_bogo_sort_result dist comp d e x g with
  | Ok (y, g') => reordered x y /\ sorted_range comp (cbase y) (coff y) (coff y + csize y)
  | UB => False
  | Fuel => True
  end.
Proof. exact @fx_bogo_sort_partial_lemma. Qed.
Print Assumptions fx_bogo_sort_partial.

Theorem fx_bozo_sort_partial : forall A G (dist : G -> nat -> nat -> nat * G) (comp : A -> A -> bool) d e (x : cont A) g,
  in_interval dist -> wf x -> depth_bound (csize x) <= e ->
  match fx_bozo_sort_result dist comp d e x g with
  | Ok (y, g') => reordered x y /\ sorted_range comp (cbase y) (coff y) (coff y + csize y)
  | UB => False
  | Fuel => True
  end.
Proof. exact @fx_bozo_sort_partial_lemma. Qed.
Print Assumptions fx_bozo_sort_partial.

Theorem fx_sorts_sorted : forall A G (dist : G -> nat -> nat -> nat * G) (comp : A -> A -> bool) d e (x : cont A) g,
  wf x -> depth_bound (csize x) <= e -> sorted_range comp (cbase x) (coff x) (coff x + csize x) ->
  fx_bogo_sort_result dist comp d e x g = Ok (x, g) /\ fx_bozo_sort_result dist comp d e x g = Ok (x, g).
Proof. exact @fx_sorts_sorted_lemma. Qed.
Print Assumptions fx_sorts_sorted.

Example fx_bogo_sort_example :
  fx_bogo_sort scripted Nat.ltb 9 9 (Cont [7;3;1;2;0] 1 3) [0;1;2;1;2;2] = Ok (Cont [7;1;2;3;0] 1 3) /\
  fx_bozo_sort scripted Nat.ltb 9 9 (Cont [7;3;1;2;0] 1 3) [0;1;1;2] = Ok (Cont [7;1;2;3;0] 1 3) /\
  fx_bozo_sort_result scripted Nat.ltb 9 9 (Cont [7;3;1;2;0] 1 3) [0;1;1;2;8] = Ok (Cont [7;1;2;3;0] 1 3, [8]).
Proof. repeat split. Qed.
