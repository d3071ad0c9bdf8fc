(** Proofs about valarrays: results of another type, shifts, and the views. *)
From Coq Require Import List Arith ZArith Bool Lia.
From Coq Require Import ZifyBool ZifyNat.
From Verif Require Import Base BaseProof SearchSpec SearchProof SearchProps SearchModel OrderSpec OrderProof ListFacts MutSpec MutModel MutProof
  FixModel FixSpec FixProof FixProps ValModel ValSpec ValProof.
Import ListNotations.
Open Scope nat_scope.

Section Other.
  Context {A B : Type}.
  Variable zb : B.

  Lemma blank_holds n N : n <= N -> holds N (Cont (repeat zb N) 0 n) (repeat zb n).
  Proof.
    intros L. unfold holds. cbn [coff cbase csize]. rewrite !repeat_length. repeat split; try lia. now apply firstn_repeat.
  Qed.

  Lemma vmap_to_correct_lemma ra d N (c : cont A) xs (op : A -> B) : holds N c xs -> length xs < d ->
    vmap_to zb ra d c op = Ok (varray zb N (map op xs)).
  Proof.
    intros H L. pose proof H as (O & F & G & HL & I). unfold vmap_to. rewrite F, G.
    apply (remade_full zb N (Cont (repeat zb N) 0 (length xs)) (repeat zb (length xs)));
      [now apply blank_holds|now rewrite map_length, repeat_length|].
    rewrite fx_transform_correct; [|eapply holds_wf; now apply blank_holds|unfold valid; lia|lia].
    unfold slice. cbn [skipn]. now rewrite Nat.sub_0_r, I.
  Qed.

  Lemma vmap2_to_correct_lemma ra d N (c e : cont A) xs ys (op : A -> A -> B) :
    holds N c xs -> holds N e ys -> length xs <= length ys -> length xs < d ->
    vmap2_to zb ra d c e op = Ok (varray zb N (map (fun p => op (fst p) (snd p)) (combine xs ys))).
  Proof.
    intros H K L D. pose proof H as (O & F & G & HL & I). pose proof K as (O' & F' & G' & HL' & I').
    unfold vmap2_to. rewrite F, G.
    apply (remade_full zb N (Cont (repeat zb N) 0 (length xs)) (repeat zb (length xs)));
      [now apply blank_holds|rewrite map_length, combine_length, repeat_length; lia|].
    rewrite fx_transform2_correct; [|eapply holds_wf; now apply blank_holds|unfold valid; lia|lia|lia].
    rewrite Nat.sub_0_r. rewrite (slice_prefix N e ys) by assumption.
    unfold slice. cbn [skipn]. rewrite Nat.sub_0_r, I. do 3 f_equal. now rewrite <- combine_firstn_l.
  Qed.
End Other.

(** ** Shifts *)
Section Shift.
  Context {A : Type}.
  Variable z : A.
  Implicit Types (c : cont A) (xs : list A).

  Lemma slice_tail N c xs i : holds N c xs -> i <= length xs -> slice (cbase c) i (csize c) = skipn i xs.
  Proof.
    intros H L. pose proof H as (O & F & G & HL & I). unfold slice. rewrite G.
    rewrite <- I at 2. now rewrite skipn_firstn_comm.
  Qed.

  Lemma map_seq_nth n (f : nat -> A) i : i < n -> nth_error (map f (seq 0 n)) i = Some (f i).
  Proof.
    intros L. rewrite nth_error_map. rewrite (nth_error_nth' _ 0) by (rewrite seq_length; lia).
    rewrite seq_nth by lia. reflexivity.
  Qed.

  Lemma ext_map xs n (f : nat -> A) : length xs = n -> (forall i, i < n -> nth_error xs i = Some (f i)) -> xs = map f (seq 0 n).
  Proof.
    intros <- H. apply list_ext. intros j. destruct (Nat.lt_ge_cases j (length xs)) as [L|L].
    - rewrite H, map_seq_nth by assumption. reflexivity.
    - rewrite !(proj2 (nth_error_None _ _)); [reflexivity|rewrite map_length, seq_length; lia|lia].
  Qed.

  Lemma nth_some xs i : i < length xs -> nth_error xs i = Some (nth i xs z).
  Proof. apply nth_error_nth'. Qed.

  (** What the vacated places hold. *)
  Definition shift_out xs (i : Z) : list A :=
    map (fun k => let j := (Z.of_nat k + i)%Z in
                  if ((0 <=? j) && (j <? Z.of_nat (length xs)))%Z then nth (Z.to_nat j) xs z else nth k xs z)
        (seq 0 (length xs)).

  Lemma vshift_lemma ra d N c xs i : holds N c xs -> (- Z.of_nat (length xs) <= i <= Z.of_nat (length xs))%Z -> length xs < d ->
    exists c', vshift z ra d c i = Ok c' /\ holds N c' (shift_out xs i).
  Proof.
    intros H R D. pose proof H as (O & F & G & HL & I). unfold vshift. rewrite G.
    destruct (Z.ltb_spec 0 i).
    - destruct (Nat.ltb_spec (length xs) (Z.to_nat i)); [lia|].
      rewrite (remade_front z N c xs (skipn (Z.to_nat i) xs)); [|assumption|rewrite skipn_length; lia|].
      + eexists. split; [reflexivity|]. rewrite skipn_length.
        replace (shift_out xs i) with (skipn (Z.to_nat i) xs ++ skipn (length xs - Z.to_nat i) xs);
          [apply varray_holds_lemma; rewrite app_length, !skipn_length; lia|].
        assert (length (skipn (Z.to_nat i) xs ++ skipn (length xs - Z.to_nat i) xs) = length xs) as E
          by (rewrite app_length, !skipn_length; lia).
        unfold shift_out. apply ext_map; [exact E|]. intros k Hk. cbv zeta.
        destruct ((0 <=? Z.of_nat k + i) && (Z.of_nat k + i <? Z.of_nat (length xs)))%Z eqn:Q.
        * rewrite nth_error_app1 by (rewrite skipn_length; lia). rewrite nth_error_skipn.
          rewrite nth_some by lia. do 2 f_equal. lia.
        * rewrite nth_error_app2 by (rewrite skipn_length; lia). rewrite nth_error_skipn, skipn_length.
          rewrite nth_some by lia. do 2 f_equal. lia.
      + rewrite fx_copy_correct; [|eapply holds_wf; eassumption|unfold valid; lia|lia].
        rewrite <- G. now rewrite (slice_tail N c xs) by (assumption || lia).
    - destruct (Z.ltb_spec i 0).
      + destruct (Nat.ltb_spec (length xs) (Z.to_nat (- i))); [lia|].
        set (m := Z.to_nat (- i)) in *.
        rewrite fx_copy_backward_correct; [|eapply holds_wf; eassumption|unfold valid; lia|lia].
        pose proof (slice_prefix N c xs (length xs - m) H ltac:(lia)) as S. cbn [Nat.add] in S. rewrite S.
        unfold with_back. rewrite firstn_length, G.
        replace (Nat.min (length xs) (Nat.min (length xs - m) (length xs))) with (length xs - m) by lia.
        replace (Nat.min (length xs - m) (length xs) - (length xs - m)) with 0 by lia. cbn [skipn].
        unfold vremade. cbn [bind cbase coff csize]. rewrite O. cbn [Nat.add].
        eexists. split; [reflexivity|].
        rewrite reset_tail_eq by (rewrite paste_length; rewrite ?firstn_length; lia).
        rewrite paste_length by (rewrite ?firstn_length; lia).
        replace (firstn (length xs) (paste (cbase c) (length xs - (length xs - m)) (firstn (length xs - m) xs)))
          with (shift_out xs i).
        * rewrite F. pose proof (varray_holds_lemma z N (shift_out xs i)) as V. unfold varray in V.
          assert (length (shift_out xs i) = length xs) as LS by (unfold shift_out; now rewrite map_length, seq_length).
          rewrite LS in V. exact (V HL).
        * apply list_ext. intros k. destruct (Nat.lt_ge_cases k (length xs)) as [Lk|Lk].
          -- rewrite nth_error_firstn by assumption. unfold shift_out. rewrite map_seq_nth by assumption. cbv zeta.
             destruct ((0 <=? Z.of_nat k + i) && (Z.of_nat k + i <? Z.of_nat (length xs)))%Z eqn:Q.
             ++ rewrite nth_paste_in by (rewrite ?firstn_length; lia).
                rewrite nth_error_firstn by lia. rewrite nth_some by lia. do 2 f_equal. lia.
             ++ rewrite nth_paste_out by (rewrite ?firstn_length; lia).
                rewrite (holds_nth N c xs) by assumption. rewrite nth_some by lia. reflexivity.
          -- rewrite !(proj2 (nth_error_None _ _)); [reflexivity|rewrite firstn_length; lia|].
             unfold shift_out. rewrite map_length, seq_length. lia.
      + exists c. split; [reflexivity|]. replace (shift_out xs i) with xs; [assumption|].
        unfold shift_out. apply ext_map; [reflexivity|]. intros k Hk. cbv zeta. replace i with 0%Z by lia.
        destruct ((0 <=? Z.of_nat k + 0) && (Z.of_nat k + 0 <? Z.of_nat (length xs)))%Z eqn:Q; [|lia].
        rewrite nth_some by lia. do 2 f_equal. lia.
  Qed.

  Lemma vshift_correct_partial_lemma ra d N c xs i : holds N c xs ->
    (- Z.of_nat (length xs) <= i <= Z.of_nat (length xs))%Z -> length xs < d ->
    exists c' xs', vshift z ra d c i = Ok c' /\ holds N c' xs' /\ length xs' = length xs /\
      forall k, k < length xs ->
        ((0 <= Z.of_nat k + i < Z.of_nat (length xs))%Z -> nth_error xs' k = nth_error (shifted z xs i) k) /\
        (~ (0 <= Z.of_nat k + i < Z.of_nat (length xs))%Z -> nth_error xs' k = nth_error xs k).
  Proof.
    intros H R D. destruct (vshift_lemma ra d N c xs i H R D) as (c' & E & K). exists c', (shift_out xs i).
    split; [assumption|]. split; [assumption|]. split; [unfold shift_out; now rewrite map_length, seq_length|].
    intros k Hk. unfold shift_out, shifted. rewrite !map_seq_nth by assumption. cbv zeta.
    destruct ((0 <=? Z.of_nat k + i) && (Z.of_nat k + i <? Z.of_nat (length xs)))%Z eqn:Q; split; intros J; try lia.
    - reflexivity.
    - now rewrite nth_some.
  Qed.

  Lemma vshift_large_lemma ra d N c xs i : holds N c xs -> (Z.of_nat (length xs) < Z.abs i)%Z ->
    vshift z ra d c i = UB /\ vcshift z d c i = UB.
  Proof.
    intros (O & F & G & HL & I) L. unfold vshift, vcshift. rewrite G.
    destruct (Z.ltb_spec 0 i).
    - destruct (Nat.ltb_spec (length xs) (Z.to_nat i)); [split; reflexivity|lia].
    - destruct (Z.ltb_spec i 0); [|lia].
      destruct (Nat.ltb_spec (length xs) (Z.to_nat (- i))); [split; reflexivity|lia].
  Qed.

  Lemma rotated_circled xs m (i : Z) : m <= length xs -> ((Z.of_nat m - i) mod Z.of_nat (length xs) = 0)%Z -> xs <> [] ->
    skipn m xs ++ firstn m xs = circled z xs i.
  Proof.
    intros L M Ne. destruct xs as [|x0 t] eqn:EX; [congruence|]. rewrite <- EX in *.
    assert (0 < length xs) as P by (subst; cbn; lia).
    assert (length (skipn m xs ++ firstn m xs) = length xs) as E
      by (rewrite app_length, skipn_length, firstn_length; lia).
    unfold circled. apply ext_map; [exact E|]. intros k Hk.
    assert ((Z.of_nat k + i) mod Z.of_nat (length xs) = (Z.of_nat k + Z.of_nat m) mod Z.of_nat (length xs))%Z as EQ.
    { apply Z.mod_divide in M; [|lia]. destruct M as [q Hq].
      replace (Z.of_nat k + Z.of_nat m)%Z with (Z.of_nat k + i + q * Z.of_nat (length xs))%Z by lia.
      now rewrite Z.mod_add by lia. }
    rewrite EQ. destruct (Nat.lt_ge_cases k (length xs - m)) as [C|C].
    - rewrite nth_error_app1 by (rewrite skipn_length; lia). rewrite nth_error_skipn, nth_some by lia.
      do 2 f_equal. rewrite Z.mod_small by lia. lia.
    - rewrite nth_error_app2 by (rewrite skipn_length; lia). rewrite skipn_length, nth_error_firstn by lia.
      rewrite nth_some by lia. do 2 f_equal.
      replace (Z.of_nat k + Z.of_nat m)%Z with (Z.of_nat k + Z.of_nat m - Z.of_nat (length xs) + 1 * Z.of_nat (length xs))%Z by lia.
      rewrite Z.mod_add by lia. rewrite Z.mod_small by lia. lia.
  Qed.

  Lemma circled_0 xs : circled z xs 0 = xs.
  Proof.
    unfold circled. symmetry. apply ext_map; [reflexivity|]. intros k Hk. rewrite nth_some by lia. do 2 f_equal.
    rewrite Z.add_0_r, Z.mod_small by lia. lia.
  Qed.

  Lemma vcshift_correct_partial_lemma d N c xs i : holds N c xs ->
    (- Z.of_nat (length xs) <= i <= Z.of_nat (length xs))%Z -> length xs < d ->
    exists c', vcshift z d c i = Ok c' /\ holds N c' (circled z xs i).
  Proof.
    intros H R D. pose proof H as (O & F & G & HL & I). unfold vcshift. rewrite G.
    assert (ROT : forall m, m <= length xs -> vremade z (fx_rotate d c m) = Ok (varray z N (skipn m xs ++ firstn m xs))).
    { intros m Lm. apply (remade_full z N c xs); [assumption|rewrite app_length, skipn_length, firstn_length; lia|].
      rewrite fx_rotate_correct; [|eapply holds_wf; eassumption|lia|lia]. rewrite O. cbn [Nat.add].
      rewrite (slice_tail N c xs) by assumption. pose proof (slice_prefix N c xs m H Lm) as S. cbn [Nat.add] in S. now rewrite S. }
    assert (LC : forall m, m <= length xs -> length (skipn m xs ++ firstn m xs) <= N)
      by (intros m Lm; rewrite app_length, skipn_length, firstn_length; lia).
    destruct (Z.ltb_spec 0 i).
    - destruct (Nat.ltb_spec (length xs) (Z.to_nat i)); [lia|]. rewrite ROT by assumption.
      eexists. split; [reflexivity|]. rewrite <- (rotated_circled xs (Z.to_nat i)).
      + now apply varray_holds_lemma, LC.
      + assumption.
      + replace (Z.of_nat (Z.to_nat i) - i)%Z with 0%Z by lia. apply Z.mod_0_l. lia.
      + intros ->. cbn in *. lia.
    - destruct (Z.ltb_spec i 0).
      + destruct (Nat.ltb_spec (length xs) (Z.to_nat (- i))); [lia|]. rewrite ROT by lia.
        eexists. split; [reflexivity|]. rewrite <- (rotated_circled xs (length xs - Z.to_nat (- i))).
        * apply varray_holds_lemma, LC. lia.
        * lia.
        * replace (Z.of_nat (length xs - Z.to_nat (- i)) - i)%Z with (Z.of_nat (length xs)) by lia. apply Z.mod_same. lia.
        * intros ->. cbn in *. lia.
      + exists c. split; [reflexivity|]. replace i with 0%Z by lia. now rewrite circled_0.
  Qed.
End Shift.
