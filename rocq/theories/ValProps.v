(** Properties of valarrays. *)
From Coq Require Import List Arith ZArith Bool.
From Verif Require Import Base SearchSpec OrderSpec MutSpec FixModel ValModel ValSpec ValProof ValProof2 ValProof3.
Import ListNotations.
Open Scope nat_scope.

(** ** C152 *)
Theorem varray_holds : forall (A : Type) (z : A) N xs, length xs <= N -> holds N (varray z N xs) xs.
Proof. exact @varray_holds_lemma. Qed.
Print Assumptions varray_holds.

Theorem ctor_seq_correct : forall (A : Type) (z : A) N f xs, reads f xs ->
  exists r, ctor_seq z N f (length xs) = Ok r /\ if_fits N xs r z.
Proof. exact @ctor_seq_correct_lemma. Qed.
Print Assumptions ctor_seq_correct.

Theorem ctor_value_correct : forall (A : Type) (z : A) N x n,
  exists r, ctor_value z N x n = Ok r /\ if_fits N (repeat x n) r z.
Proof. exact @ctor_value_correct_lemma. Qed.
Print Assumptions ctor_value_correct.

Theorem ctor_size_correct : forall (A : Type) (z : A) N n, if_fits N (repeat z n) (ctor_size z N n) z.
Proof. exact @ctor_size_correct_lemma. Qed.
Print Assumptions ctor_size_correct.

Theorem vget_correct : forall (A : Type) N (c : cont A) xs i x, holds N c xs -> nth_error xs i = Some x ->
  vget c i = Ok x /\ vat c i = Ok (Returns x).
Proof. exact @vget_correct_lemma. Qed.
Print Assumptions vget_correct.

Theorem vat_correct : forall (A : Type) N (c : cont A) xs i, holds N c xs -> length xs <= i ->
  vat c i = Ok (Throws BstrModel.Out_of_range_error).
Proof. exact @vat_correct_lemma. Qed.
Print Assumptions vat_correct.

Theorem vfront_back_correct : forall (A : Type) N (c : cont A) xs, holds N c xs -> forall x y m,
  (xs = x :: m -> vfront c = Ok x) /\ (xs = m ++ [y] -> vback c = Ok y).
Proof. exact @vfront_back_correct_lemma. Qed.
Print Assumptions vfront_back_correct.

Theorem vset_correct : forall (A : Type) N (c : cont A) xs i x, holds N c xs -> i < length xs ->
  exists c', vset c i x = Ok c' /\ holds N c' (upd xs i x).
Proof. exact @vset_correct_lemma. Qed.
Print Assumptions vset_correct.

(** empty() says the opposite. *)
Theorem vswap_correct : forall (A : Type) N (c e : cont A) xs ys, holds N c xs -> holds N e ys ->
  holds N (fst (vswap c e)) ys /\ holds N (snd (vswap c e)) xs.
Proof. exact @vswap_correct_lemma. Qed.
Print Assumptions vswap_correct.

Theorem vempty_refuted : forall A N (c : cont A) xs, holds N c xs -> vempty c = true <-> xs <> [].
Proof. exact @vempty_refuted_lemma. Qed.
Print Assumptions vempty_refuted.

Example valarray_example :
  let c := varray 0 5 [7;8;9] in
  holds 5 c [7;8;9] /\ ctor_seq 0 5 (rd [7;8;9]) 3 = Ok (Returns c) /\
  ctor_seq 0 2 (rd [7;8;9]) 3 = Ok (Throws BstrModel.Length_error) /\
  ctor_value 0 3 4 2 = Ok (Returns (Cont [4;4;0] 0 2)) /\
  vat c 2 = Ok (Returns 9) /\ vat c 3 = Ok (Throws BstrModel.Out_of_range_error) /\ vget c 3 = Ok 0 /\
  vfront c = Ok 7 /\ vback c = Ok 9 /\ vempty c = true /\ vempty (varray 0 5 []) = false.
Proof. cbv zeta. split; [apply varray_holds; cbn; repeat constructor|]. repeat split; reflexivity. Qed.

(** ** C153 *)
Theorem vfill_correct : forall (A : Type) N (c : cont A) xs x, holds N c xs -> holds N (vfill c x) (repeat x (length xs)).
Proof. exact @vfill_correct_lemma. Qed.
Print Assumptions vfill_correct.

Theorem vresize_correct : forall (A : Type) N (c : cont A) xs n x, holds N c xs ->
  (n <= N -> exists c', vresize c n x = (c', None) /\ holds N c' (repeat x n)) /\
  (N < n -> vresize c n x = (c, Some BstrModel.Length_error)).
Proof. exact @vresize_correct_lemma. Qed.
Print Assumptions vresize_correct.

Theorem vassign_correct : forall (A : Type) N (c : cont A) xs f ys, holds N c xs -> reads f ys ->
  (length ys <= N -> exists c', vassign c f (length ys) = Ok (c', None) /\ holds N c' ys) /\
  (N < length ys -> vassign c f (length ys) = Ok (c, Some BstrModel.Length_error)).
Proof. exact @vassign_correct_lemma. Qed.
Print Assumptions vassign_correct.

Example valarray_assign_example :
  vresize (varray 0 4 [7;8]) 3 5 = (Cont [5;5;5;5] 0 3, None) /\
  vresize (varray 0 4 [7;8]) 6 5 = (varray 0 4 [7;8], Some BstrModel.Length_error) /\
  vassign (varray 0 4 [7;8]) (rd [1;2;3]) 3 = Ok (Cont [1;2;3;0] 0 3, None) /\
  vassign (varray 0 2 [7;8]) (rd [1;2;3]) 3 = Ok (varray 0 2 [7;8], Some BstrModel.Length_error).
Proof. repeat split; reflexivity. Qed.

(** ** C154 *)
Theorem vmap_correct : forall (A : Type) (z : A) ra d N (c : cont A) xs op, holds N c xs -> length xs < d ->
  vmap z ra d c op = Ok (varray z N (map op xs)).
Proof. exact @vmap_correct_lemma. Qed.
Print Assumptions vmap_correct.

Theorem vmap2_correct : forall (A : Type) (z : A) ra d N (c e : cont A) xs ys op,
  holds N c xs -> holds N e ys -> length xs <= length ys -> length xs < d ->
  vmap2 z ra d c e op = Ok (varray z N (map (fun p => op (fst p) (snd p)) (combine xs ys))).
Proof. exact @vmap2_correct_lemma. Qed.
Print Assumptions vmap2_correct.

Theorem vmap_to_correct : forall (A B : Type) (zb : B) ra d N (c : cont A) xs op, holds N c xs -> length xs < d ->
  vmap_to zb ra d c op = Ok (varray zb N (map op xs)).
Proof. exact @vmap_to_correct_lemma. Qed.
Print Assumptions vmap_to_correct.

Theorem vmap2_to_correct : forall (A B : Type) (zb : B) ra d N (c e : cont A) xs ys op,
  holds N c xs -> holds N e ys -> length xs <= length ys -> length xs < d ->
  vmap2_to zb ra d c e op = Ok (varray zb N (map (fun p => op (fst p) (snd p)) (combine xs ys))).
Proof. exact @vmap2_to_correct_lemma. Qed.
Print Assumptions vmap2_to_correct.

Theorem vupdate_correct : forall (A : Type) k N (c : cont A) xs op, holds N c xs -> length xs < k ->
  exists c', vupdate k c op = Ok c' /\ holds N c' (map op xs) /\
    skipn (length xs) (cbase c') = skipn (length xs) (cbase c).
Proof. exact @vupdate_correct_lemma. Qed.
Print Assumptions vupdate_correct.

Theorem vsum_correct : forall (A : Type) (z : A) ra d N (c : cont A) xs plus, holds N c xs -> depth_bound (length xs) <= d ->
  vsum z ra d c plus = Ok (fold_left plus xs z).
Proof. exact @vsum_correct_lemma. Qed.
Print Assumptions vsum_correct.

Theorem vmin_correct : forall (A : Type) (less : A -> A -> bool), strict_weak_order less ->
  forall ra d N (c : cont A) xs, holds N c xs -> xs <> [] -> depth_bound (length xs) <= d ->
  exists x, vmin less ra d c = Ok x /\ In x xs /\ forall y, In y xs -> less y x = false.
Proof. exact @vmin_correct_lemma. Qed.
Print Assumptions vmin_correct.

Theorem vmax_correct : forall (A : Type) (less : A -> A -> bool), strict_weak_order less ->
  forall ra d N (c : cont A) xs, holds N c xs -> xs <> [] -> depth_bound (length xs) <= d ->
  exists x, vmax less ra d c = Ok x /\ In x xs /\ forall y, In y xs -> less x y = false.
Proof. exact @vmax_correct_lemma. Qed.
Print Assumptions vmax_correct.

Example elementwise_example :
  vmap 0 true 5 (varray 0 4 [7;8]) S = Ok (varray 0 4 [8;9]) /\
  vmap2 0 true 5 (varray 0 4 [7;8]) (varray 0 4 [1;2]) Nat.add = Ok (varray 0 4 [8;10]) /\
  vmap2_to false true 5 (varray 0 4 [7;2]) (varray 0 4 [1;2]) Nat.ltb = Ok (varray false 4 [false;false]) /\
  vupdate 5 (varray 0 3 [7;8]) (Nat.mul 2) = Ok (Cont [14;16;0] 0 2) /\
  vsum 0 true 9 (varray 0 4 [7;8;3]) Nat.add = Ok 18 /\ vmin Nat.ltb true 9 (varray 0 4 [7;8;3]) = Ok 3 /\
  vmax Nat.ltb true 9 (varray 0 4 [7;8;3]) = Ok 8.
Proof. repeat split; reflexivity. Qed.

(** ** C155 *)
Theorem vshift_partial : forall (A : Type) (z : A) ra d N (c : cont A) xs i, holds N c xs ->
  (- Z.of_nat (length xs) <= i <= Z.of_nat (length xs))%Z -> length xs < d ->
  exists c' xs', vshift z ra d c i = Ok c' /\ holds N c' xs' /\ length xs' = length xs /\
    forall k, k < length xs ->
      ((0 <= Z.of_nat k + i < Z.of_nat (length xs))%Z -> nth_error xs' k = nth_error (shifted z xs i) k) /\
      (~ (0 <= Z.of_nat k + i < Z.of_nat (length xs))%Z -> nth_error xs' k = nth_error xs k).
Proof. exact @vshift_correct_partial_lemma. Qed.
Print Assumptions vshift_partial.

Theorem vshift_refuted : exists (c c' : cont nat) xs, holds 3 c xs /\ vshift 0 true 9 c 1 = Ok c' /\
  ~ holds 3 c' (shifted 0 xs 1).
Proof. exact @vshift_refuted_lemma. Qed.
Print Assumptions vshift_refuted.

Theorem vcshift_partial : forall (A : Type) (z : A) d N (c : cont A) xs i, holds N c xs ->
  (- Z.of_nat (length xs) <= i <= Z.of_nat (length xs))%Z -> length xs < d ->
  exists c', vcshift z d c i = Ok c' /\ holds N c' (circled z xs i).
Proof. exact @vcshift_correct_partial_lemma. Qed.
Print Assumptions vcshift_partial.

Theorem vshift_large_refuted : forall (A : Type) (z : A) ra d N (c : cont A) xs i, holds N c xs ->
  (Z.of_nat (length xs) < Z.abs i)%Z -> vshift z ra d c i = UB /\ vcshift z d c i = UB.
Proof. exact @vshift_large_lemma. Qed.
Print Assumptions vshift_large_refuted.

Example shift_example :
  vshift 0 true 9 (varray 0 5 [1;2;3;4]) 1 = Ok (varray 0 5 [2;3;4;4]) /\ shifted 0 [1;2;3;4] 1 = [2;3;4;0] /\
  vshift 0 true 9 (varray 0 5 [1;2;3;4]) (-1) = Ok (varray 0 5 [1;1;2;3]) /\ shifted 0 [1;2;3;4] (-1) = [0;1;2;3] /\
  vcshift 0 9 (varray 0 5 [1;2;3;4]) 1 = Ok (varray 0 5 [2;3;4;1]) /\ circled 0 [1;2;3;4] 1 = [2;3;4;1] /\
  vcshift 0 9 (varray 0 5 [1;2;3;4]) (-1) = Ok (varray 0 5 [4;1;2;3]) /\ circled 0 [1;2;3;4] (-1) = [4;1;2;3] /\
  vcshift 0 9 (varray 0 5 [1;2;3;4]) 5 = UB /\ circled 0 [1;2;3;4] 5 = [2;3;4;1].
Proof. repeat split; reflexivity. Qed.

(** ** C156 *)
Theorem slice_view_correct : forall start size stride,
  picks (slice_view start size stride) (map (fun i => start + stride * i) (seq 0 size)).
Proof. exact @slice_view_correct_lemma. Qed.
Print Assumptions slice_view_correct.

Theorem gslice_view_correct : forall ra d N M start sizes strides ns ss, holds M sizes ns -> holds M strides ss ->
  length ss = length ns -> ns <> [] -> S (length ns) < d ->
  exists v, gslice_view ra d N start sizes strides = Ok v /\ picks v (grid start ns ss).
Proof. exact @gslice_view_correct_lemma. Qed.
Print Assumptions gslice_view_correct.

Theorem mask_view_correct : forall ra d N M mask bs, holds M mask bs -> depth_bound (length bs) <= d -> length bs < d ->
  exists r, mask_view ra d N mask = Ok r /\
    (length (trues bs) <= N -> exists v, r = Returns v /\ picks v (trues bs)) /\
    (N < length (trues bs) -> r = Throws BstrModel.Length_error).
Proof. exact @mask_view_correct_lemma. Qed.
Print Assumptions mask_view_correct.

Theorem indirect_view_correct : forall M indexes ps, holds M indexes ps -> picks (indirect_view indexes) ps.
Proof. exact @indirect_view_correct_lemma. Qed.
Print Assumptions indirect_view_correct.

(** The example of the C++ standard for gslice. *)
Example view_example :
  grid 3 [2;4;3] [19;4;1] = [3;4;5;7;8;9;11;12;13;15;16;17;22;23;24;26;27;28;30;31;32;34;35;36] /\
  (exists v, gslice_view true 9 40 3 (varray 0 3 [2;4;3]) (varray 0 3 [19;4;1]) = Ok v /\ vlen v = 24 /\
     map (vidx v) [0;1;3;12;23] = [Ok 3; Ok 4; Ok 7; Ok 22; Ok 36]) /\
  trues [true;false;true;true] = [0;2;3] /\
  (exists v, mask_view true 12 6 (varray false 4 [true;false;true;true]) = Ok (Returns v) /\ vlen v = 3 /\
     map (vidx v) [0;1;2] = [Ok 0; Ok 2; Ok 3]) /\
  mask_view true 12 2 (varray false 4 [true;false;true;true]) = Ok (Throws BstrModel.Length_error).
Proof.
  split; [reflexivity|]. split; [eexists; split; [reflexivity|]; split; reflexivity|].
  split; [reflexivity|]. split; [eexists; split; [reflexivity|]; split; reflexivity|]. reflexivity.
Qed.

(** ** C157 *)
Theorem view_read_correct : forall (A : Type) (z : A) N M (c : cont A) xs v ps, holds N c xs -> picks v ps ->
  (forall p, In p ps -> p < length xs) ->
  exists r, view_read z M c v = Ok r /\ if_fits M (map (fun p => nth p xs z) ps) r z.
Proof. exact @view_read_correct_lemma. Qed.
Print Assumptions view_read_correct.

Theorem view_front_back_correct : forall (A : Type) (z : A) N (c : cont A) xs v ps, holds N c xs -> picks v ps ->
  (forall p, In p ps -> p < length xs) ->
  forall p m, (ps = p :: m -> view_front c v = Ok (nth p xs z)) /\ (ps = m ++ [p] -> view_back c v = Ok (nth p xs z)).
Proof. exact @view_front_back_correct_lemma. Qed.
Print Assumptions view_front_back_correct.

Theorem view_update_correct : forall (A : Type) N op f v (c : cont A) xs ps ys, holds N c xs -> picks v ps -> NoDup ps ->
  (forall p, In p ps -> p < length xs) -> reads f ys -> length ys <= length ps ->
  exists c' xs', view_update op f v 0 (length ys) c = Ok c' /\ holds N c' xs' /\ spread op ps ys xs xs'.
Proof. exact @view_update_correct_lemma. Qed.
Print Assumptions view_update_correct.

Theorem view_fill_correct : forall (A : Type) N v x (c : cont A) xs ps, holds N c xs -> picks v ps -> NoDup ps ->
  (forall p, In p ps -> p < length xs) ->
  exists c' xs', view_fill v x c = Ok c' /\ holds N c' xs' /\ length xs' = length xs /\
    (forall p, In p ps -> nth_error xs' p = Some x) /\ (forall p, ~ In p ps -> nth_error xs' p = nth_error xs p).
Proof. exact @view_fill_correct_lemma. Qed.
Print Assumptions view_fill_correct.

Example view_write_example :
  let v := slice_view 1 3 2 in let c := varray 0 8 [10;11;12;13;14;15;16] in
  map (fun i => 1 + 2 * i) (seq 0 3) = [1;3;5] /\
  view_read 0 4 c v = Ok (Returns (varray 0 4 [11;13;15])) /\
  view_update Nat.add (rd [100;200;300]) v 0 3 c = Ok (varray 0 8 [10;111;12;213;14;315;16]) /\
  view_assign (rd [100;200]) v 2 c = Ok (varray 0 8 [10;100;12;200;14;15;16]) /\
  view_fill v 0 c = Ok (varray 0 8 [10;0;12;0;14;0;16]).
Proof. repeat split; reflexivity. Qed.
