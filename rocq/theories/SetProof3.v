(** The searches over two sorted ranges and the lazy iterators. *)
From Coq Require Import List Arith Bool Lia Sorted Permutation.
From Verif Require Import Base BaseProof SearchSpec SearchProof OrderModel OrderSpec OrderProof OrderProof2 ListFacts
  MutModel MutSpec MutProof SetModel SetSpec SetProof.
Import ListNotations.

Section S.
  Context {A : Type}.
  Variable comp : A -> A -> bool.
  Hypothesis W : strict_weak_order comp.
  Variables la lb : list A.
  Variables last1 last2 : nat.
  Hypothesis L1 : last1 <= length la.
  Hypothesis L2 : last2 <= length lb.

  Notation so a b e i j := (setop comp a b e (slice la i last1) (slice lb j last2)).

  Lemma dbl_inv {S} (b : S -> bool) (step : S -> res S) (I : S -> Prop) (m : S -> nat) n d s :
    (forall s, I s -> b s = false -> exists s', step s = Ok s' /\ I s' /\ m s' < m s) ->
    I s -> m s <= n -> depth_bound n <= d ->
    exists sf, dbl (stop b) step d s 1 = Ok sf /\ I sf /\ b sf = true.
  Proof.
    intros H HI Hm Hd. destruct (loop_inv b step I m H (Datatypes.S n) s HI ltac:(lia)) as (sf & E & H1 & H2).
    exists sf. split; [|auto]. eapply dbl_stop_correct; [exact E|]. now apply depth_dbl.
  Qed.

  Definition mu (s : nat * nat * bool) : nat := let '(i, j, b) := s in (last1 - i) + (last2 - j) + (if b then 0 else 1).

  Definition eqv (i j : nat) : Prop := exists x y, nth_error la i = Some x /\ nth_error lb j = Some y /\ equivalent comp x y.

  (** *** find_intersection *)
  Lemma find_intersection_inv d first1 first2 (J : nat -> nat -> Prop) :
    first1 <= last1 -> first2 <= last2 ->
    J first1 first2 ->
    (forall i j x y, first1 <= i < last1 -> first2 <= j < last2 -> J i j -> nth_error la i = Some x -> nth_error lb j = Some y ->
       (comp x y = true -> J (S i) j) /\ (comp y x = true -> J i (S j))) ->
    depth_bound ((last1 - first1) + (last2 - first2) + 1) <= d ->
    exists i j, first1 <= i <= last1 /\ first2 <= j <= last2 /\ J i j /\
      (find_intersection comp d la lb first1 last1 first2 last2 = Ok (i, j) /\ i < last1 /\ j < last2 /\ eqv i j \/
       find_intersection comp d la lb first1 last1 first2 last2 = Ok (last1, last2) /\ (i = last1 \/ j = last2)).
  Proof.
    intros B1 B2 J0 JS Hd. unfold find_intersection.
    destruct (dbl_inv (fun '((i, j, b) : nat * nat * bool) => b || (i =? last1) || (j =? last2))
      (fun '((i, j, b) : nat * nat * bool) =>
        x <- rd la i ;; y <- rd lb j ;;
        Ok (if comp x y then (S i, j, false)
            else if comp y x then (i, S j, false)
            else (i, j, true)))
      (fun '((i, j, b) : nat * nat * bool) => first1 <= i <= last1 /\ first2 <= j <= last2 /\ J i j /\
        (b = true -> i < last1 /\ j < last2 /\ eqv i j)) mu
      ((last1 - first1) + (last2 - first2) + 1) d (first1, first2, false)) as ([[i j] b] & E & I & Hb).
    - intros [[i j] b] (I1 & I2 & IJ & _) Hb. apply orb_false_iff in Hb. destruct Hb as [Hb Hj].
      apply orb_false_iff in Hb. destruct Hb as [-> Hi]. apply Nat.eqb_neq in Hi, Hj.
      destruct (nth_error_ex la i ltac:(lia)) as [x Hx]. destruct (nth_error_ex lb j ltac:(lia)) as [y Hy].
      unfold rd. rewrite Hx, Hy. cbn [bind]. eexists. split; [reflexivity|].
      destruct (JS i j x y ltac:(lia) ltac:(lia) IJ Hx Hy) as [Q1 Q2].
      destruct (comp x y) eqn:C1; [|destruct (comp y x) eqn:C2]; cbn [mu].
      + repeat split; try lia; auto; discriminate.
      + repeat split; try lia; auto; discriminate.
      + split; [|lia]. split; [lia|]. split; [lia|]. split; [exact IJ|]. intros _. split; [lia|]. split; [lia|].
        exists x, y. repeat split; assumption.
    - split; [lia|]. split; [lia|]. split; [exact J0|discriminate].
    - cbn [mu]. lia.
    - exact Hd.
    - rewrite E. cbn [bind]. destruct I as (I1 & I2 & IJ & Ib). exists i, j. split; [exact I1|]. split; [exact I2|].
      split; [exact IJ|]. destruct b.
      + left. split; [reflexivity|]. now apply Ib.
      + right. split; [reflexivity|]. apply orb_true_iff in Hb. rewrite !Nat.eqb_eq in Hb. cbn in Hb.
        rewrite Nat.eqb_eq in Hb. exact Hb.
  Qed.

  (** *** find_difference *)
  Lemma find_difference_inv d first1 first2 (J : nat -> nat -> Prop) :
    first1 <= last1 -> first2 <= last2 ->
    J first1 first2 ->
    (forall i j x y, first1 <= i < last1 -> first2 <= j < last2 -> J i j -> nth_error la i = Some x -> nth_error lb j = Some y ->
       comp x y = false -> (comp y x = true -> J i (S j)) /\ (comp y x = false -> J (S i) (S j))) ->
    depth_bound ((last1 - first1) + (last2 - first2) + 1) <= d ->
    exists i j, first1 <= i <= last1 /\ first2 <= j <= last2 /\ J i j /\
      (find_difference comp d la lb first1 last1 first2 last2 = Ok (i, j) /\ i < last1 /\
         (j = last2 \/ j < last2 /\ rel comp la i lb j) \/
       find_difference comp d la lb first1 last1 first2 last2 = Ok (last1, last2) /\ i = last1).
  Proof.
    intros B1 B2 J0 JS Hd. unfold find_difference.
    destruct (dbl_inv (fun '((i, j, b) : nat * nat * bool) => b || (i =? last1))
      (fun '((i, j, b) : nat * nat * bool) =>
        if j =? last2 then Ok (i, j, true)
        else
          x <- rd la i ;; y <- rd lb j ;;
          Ok (if comp x y then (i, j, true)
              else if comp y x then (i, S j, false)
              else (S i, S j, false)))
      (fun '((i, j, b) : nat * nat * bool) => first1 <= i <= last1 /\ first2 <= j <= last2 /\ J i j /\
        (b = true -> i < last1 /\ (j = last2 \/ j < last2 /\ rel comp la i lb j))) mu
      ((last1 - first1) + (last2 - first2) + 1) d (first1, first2, false)) as ([[i j] b] & E & I & Hb).
    - intros [[i j] b] (I1 & I2 & IJ & _) Hb. apply orb_false_iff in Hb. destruct Hb as [-> Hi].
      apply Nat.eqb_neq in Hi. destruct (Nat.eqb_spec j last2) as [->|Hj].
      { eexists. split; [reflexivity|]. cbn [mu]. split; [|lia]. repeat split; try lia; auto. }
      destruct (nth_error_ex la i ltac:(lia)) as [x Hx]. destruct (nth_error_ex lb j ltac:(lia)) as [y Hy].
      unfold rd. rewrite Hx, Hy. cbn [bind]. eexists. split; [reflexivity|].
      destruct (comp x y) eqn:C1.
      { cbn [mu]. split; [|lia]. split; [lia|]. split; [lia|]. split; [exact IJ|]. intros _. split; [lia|]. right.
        split; [lia|]. now exists x, y. }
      destruct (JS i j x y ltac:(lia) ltac:(lia) IJ Hx Hy C1) as [Q1 Q2].
      destruct (comp y x) eqn:C2; cbn [mu]; repeat split; try lia; auto; discriminate.
    - split; [lia|]. split; [lia|]. split; [exact J0|discriminate].
    - cbn [mu]. lia.
    - exact Hd.
    - rewrite E. cbn [bind]. destruct I as (I1 & I2 & IJ & Ib). exists i, j. split; [exact I1|]. split; [exact I2|].
      split; [exact IJ|]. destruct b.
      + left. split; [reflexivity|]. now apply Ib.
      + right. split; [reflexivity|]. apply Nat.eqb_eq. exact Hb.
  Qed.

  (** *** find_symmetric_difference *)
  Lemma find_symmetric_difference_inv d first1 first2 (J : nat -> nat -> Prop) :
    first1 <= last1 -> first2 <= last2 ->
    J first1 first2 ->
    (forall i j, first1 <= i < last1 -> first2 <= j < last2 -> J i j -> eqv i j -> J (S i) (S j)) ->
    depth_bound ((last1 - first1) + (last2 - first2) + 1) <= d ->
    exists i j, first1 <= i <= last1 /\ first2 <= j <= last2 /\ J i j /\
      find_symmetric_difference comp d la lb first1 last1 first2 last2 = Ok (i, j) /\
      (i = last1 \/ j = last2 \/ i < last1 /\ j < last2 /\ ~ eqv i j).
  Proof.
    intros B1 B2 J0 JS Hd. unfold find_symmetric_difference.
    destruct (dbl_inv (fun '((i, j, b) : nat * nat * bool) => b || (i =? last1) || (j =? last2))
      (fun '((i, j, b) : nat * nat * bool) =>
        x <- rd la i ;; y <- rd lb j ;;
        Ok (if comp x y || comp y x then (i, j, true) else (S i, S j, false)))
      (fun '((i, j, b) : nat * nat * bool) => first1 <= i <= last1 /\ first2 <= j <= last2 /\ J i j /\
        (b = true -> i < last1 /\ j < last2 /\ ~ eqv i j)) mu
      ((last1 - first1) + (last2 - first2) + 1) d (first1, first2, false)) as ([[i j] b] & E & I & Hb).
    - intros [[i j] b] (I1 & I2 & IJ & _) Hb. apply orb_false_iff in Hb. destruct Hb as [Hb Hj].
      apply orb_false_iff in Hb. destruct Hb as [-> Hi]. apply Nat.eqb_neq in Hi, Hj.
      destruct (nth_error_ex la i ltac:(lia)) as [x Hx]. destruct (nth_error_ex lb j ltac:(lia)) as [y Hy].
      unfold rd. rewrite Hx, Hy. cbn [bind]. eexists. split; [reflexivity|].
      destruct (comp x y || comp y x) eqn:C; cbn [mu].
      + split; [|lia]. split; [lia|]. split; [lia|]. split; [exact IJ|]. intros _. split; [lia|]. split; [lia|].
        intros (x' & y' & Hx' & Hy' & E1 & E2). rewrite Hx in Hx'. rewrite Hy in Hy'. injection Hx' as <-. injection Hy' as <-.
        rewrite E1, E2 in C. discriminate.
      + apply orb_false_iff in C. destruct C as [C1 C2]. split; [|lia]. split; [lia|]. split; [lia|].
        split; [|discriminate]. apply JS; try lia; auto. exists x, y. repeat split; assumption.
    - split; [lia|]. split; [lia|]. split; [exact J0|discriminate].
    - cbn [mu]. lia.
    - exact Hd.
    - rewrite E. cbn [bind]. destruct I as (I1 & I2 & IJ & Ib). exists i, j. split; [exact I1|]. split; [exact I2|].
      split; [exact IJ|]. split; [reflexivity|]. destruct b; [right; right; now apply Ib|].
      apply orb_true_iff in Hb. cbn in Hb. rewrite !Nat.eqb_eq in Hb. tauto.
  Qed.

  (** ** Traversals *)
  Lemma traverse_ok (next : nat * nat -> res (nat * nat)) (deref : nat * nat -> res A)
      (I : nat * nat -> Prop) (F : nat * nat -> list A) (m : nat * nat -> nat) :
    (forall s, I s -> s = (last1, last2) /\ F s = [] \/
       s <> (last1, last2) /\ exists x s', deref s = Ok x /\ next s = Ok s' /\ I s' /\ m s' < m s /\ F s = x :: F s') ->
    forall k s, I s -> m s < k -> traverse k next deref last1 last2 s = Ok (F s).
  Proof.
    intros H. induction k as [|k IH]; intros s Hs Hk; [lia|]. cbn [traverse].
    destruct (H s Hs) as [[-> E]|(N & x & s' & E1 & E2 & I' & M & E3)].
    - cbn [fst snd]. rewrite !Nat.eqb_refl. cbn. now rewrite E.
    - replace ((fst s =? last1) && (snd s =? last2)) with false.
      2: { symmetry. apply andb_false_iff. rewrite !Nat.eqb_neq. destruct s as [i j]. cbn.
           destruct (Nat.eq_dec i last1); [right|now left]. intros ->. subst. now apply N. }
      rewrite E1. cbn [bind]. rewrite E2. cbn [bind]. rewrite IH by (auto; lia). cbn [bind]. now rewrite E3.
  Qed.

  Lemma pair_neq (i j : nat) : i < last1 \/ j < last2 -> (i, j) <> (last1, last2).
  Proof. intros H E. injection E as -> ->. lia. Qed.

  Definition mu2 (s : nat * nat) : nat := (last1 - fst s) + (last2 - snd s).

  Section Fixed.
  Variables first1 first2 : nat.
  Hypothesis B1 : first1 <= last1.
  Hypothesis B2 : first2 <= last2.

  Lemma ends i j : i <= last1 -> j <= last2 -> i < last1 \/ j < last2 \/ i = last1 /\ j = last2.
  Proof. lia. Qed.

  Lemma merge_range_ok k : (last1 - first1) + (last2 - first2) < k ->
    merge_range comp k la lb first1 last1 first2 last2 = Ok (mrg comp (slice la first1 last1) (slice lb first2 last2)).
  Proof.
    intros Hk. unfold merge_range.
    apply (traverse_ok _ _ (fun s => fst s <= last1 /\ snd s <= last2)
      (fun s => mrg comp (slice la (fst s) last1) (slice lb (snd s) last2)) mu2); [|cbn; lia|unfold mu2; cbn; lia].
    intros [i j] [Hi Hj]. cbn [fst snd] in *. unfold deref_side, merge_in_left, merge_next, mu2. cbn [fst snd].
    destruct (Nat.eqb_spec i last1) as [->|Ni]; [destruct (Nat.eqb_spec j last2) as [->|Nj]|]; cbn [negb bind].
    - left. split; [reflexivity|]. now rewrite !slice_nil by lia.
    - right. split; [apply pair_neq; lia|]. destruct (nth_error_ex lb j ltac:(lia)) as [y Hy].
      exists y, (last1, S j). unfold rd. rewrite Hy. cbn [fst snd]. split; [reflexivity|]. split; [reflexivity|].
      split; [lia|]. split; [lia|]. rewrite (slice_nil la last1 last1), !mrg_nil_l by lia.
      apply slice_cons; [lia|exact Hy].
    - right. split; [apply pair_neq; lia|]. destruct (nth_error_ex la i ltac:(lia)) as [x Hx].
      destruct (Nat.eqb_spec j last2) as [->|Nj]; cbn [negb bind].
      + exists x, (S i, last2). unfold rd. rewrite Hx. cbn [fst snd]. split; [reflexivity|]. split; [reflexivity|].
        split; [lia|]. split; [lia|]. rewrite (slice_nil lb last2 last2), !mrg_nil_r by lia.
        apply slice_cons; [lia|exact Hx].
      + destruct (nth_error_ex lb j ltac:(lia)) as [y Hy]. unfold rd. rewrite Hx, Hy. cbn [bind].
        rewrite (slice_cons la i last1 x), (slice_cons lb j last2 y) by (auto; lia). rewrite mrg_cons.
        destruct (comp y x); cbn [negb].
        * exists y, (i, S j). cbn [fst snd]. repeat split; try lia. now rewrite (slice_cons la i last1 x) by (auto; lia).
        * exists x, (S i, j). cbn [fst snd]. repeat split; try lia. now rewrite (slice_cons lb j last2 y) by (auto; lia).
  Qed.

  Lemma set_union_range_ok k : (last1 - first1) + (last2 - first2) < k ->
    set_union_range comp k la lb first1 last1 first2 last2 = Ok (so true true true first1 first2).
  Proof.
    intros Hk. unfold set_union_range.
    apply (traverse_ok _ _ (fun s => fst s <= last1 /\ snd s <= last2)
      (fun s => so true true true (fst s) (snd s)) mu2); [|cbn; lia|unfold mu2; cbn; lia].
    intros [i j] [Hi Hj]. cbn [fst snd] in *. unfold deref_side, union_in_left, next_union, mu2. cbn [fst snd].
    destruct (Nat.eqb_spec i last1) as [->|Ni]; [destruct (Nat.eqb_spec j last2) as [->|Nj]|]; cbn [negb bind].
    - left. split; [reflexivity|]. now rewrite !slice_nil by lia.
    - right. split; [apply pair_neq; lia|]. destruct (nth_error_ex lb j ltac:(lia)) as [y Hy].
      exists y, (last1, S j). unfold rd. rewrite Hy. cbn [fst snd]. split; [reflexivity|]. split; [reflexivity|].
      split; [lia|]. split; [lia|]. rewrite (slice_nil la last1 last1), !setop_nil_l by lia.
      apply slice_cons; [lia|exact Hy].
    - right. split; [apply pair_neq; lia|]. destruct (nth_error_ex la i ltac:(lia)) as [x Hx].
      destruct (Nat.eqb_spec j last2) as [->|Nj]; cbn [negb bind].
      + exists x, (S i, last2). unfold rd. rewrite Hx. cbn [fst snd]. split; [reflexivity|]. split; [reflexivity|].
        split; [lia|]. split; [lia|]. rewrite (slice_nil lb last2 last2), !setop_nil_r by lia.
        apply slice_cons; [lia|exact Hx].
      + destruct (nth_error_ex lb j ltac:(lia)) as [y Hy]. unfold rd. rewrite Hx, Hy. cbn [bind].
        rewrite (slice_cons la i last1 x), (slice_cons lb j last2 y) by (auto; lia). rewrite setop_cons.
        destruct (comp x y); [|destruct (comp y x)]; cbn [negb orb app].
        * exists x, (S i, j). cbn [fst snd]. repeat split; try lia. now rewrite (slice_cons lb j last2 y) by (auto; lia).
        * exists y, (i, S j). cbn [fst snd]. repeat split; try lia. now rewrite (slice_cons la i last1 x) by (auto; lia).
        * exists x, (S i, S j). cbn [fst snd]. repeat split; lia.
  Qed.

  Lemma depth_less n n' d : n <= n' -> depth_bound n' <= d -> depth_bound n <= d.
  Proof. intros H. pose proof (depth_mono n n' H). lia. Qed.

  (** The state after find_intersection. *)
  Definition Iint (s : nat * nat) : Prop := s = (last1, last2) \/ fst s < last1 /\ snd s < last2 /\ eqv (fst s) (snd s).

  Lemma find_intersection_so d i j : i <= last1 -> j <= last2 -> depth_bound ((last1 - i) + (last2 - j) + 1) <= d ->
    exists s, find_intersection comp d la lb i last1 j last2 = Ok s /\ Iint s /\ i <= fst s /\ j <= snd s /\
      so false false true i j = so false false true (fst s) (snd s).
  Proof.
    intros Hi Hj Hd.
    destruct (find_intersection_inv d i j (fun i' j' => so false false true i j = so false false true i' j') Hi Hj eq_refl)
      as (i' & j' & C1 & C2 & E & [(F & D1 & D2 & D3)|(F & D)]).
    - intros i1 j1 x y P1 P2 -> Hx Hy. rewrite (slice_cons la i1 last1 x), (slice_cons lb j1 last2 y) by (auto; lia).
      rewrite setop_cons. split; intros C; rewrite C; [reflexivity|].
      rewrite (swo_asym comp W _ _ C). reflexivity.
    - exact Hd.
    - exists (i', j'). rewrite F. cbn [fst snd]. split; [reflexivity|]. split; [right; auto|]. split; [lia|]. split; [lia|]. exact E.
    - exists (last1, last2). rewrite F. cbn [fst snd]. split; [reflexivity|]. split; [now left|]. split; [lia|]. split; [lia|].
      rewrite E, (slice_nil la last1 last1), (slice_nil lb last2 last2) by lia.
      destruct D as [-> | ->].
      + rewrite (slice_nil la last1 last1) by lia. rewrite !setop_nil_l. reflexivity.
      + rewrite (slice_nil lb last2 last2) by lia. rewrite !setop_nil_r. reflexivity.
  Qed.

  Lemma set_intersection_range_ok k d : (last1 - first1) + (last2 - first2) < k ->
    depth_bound ((last1 - first1) + (last2 - first2) + 1) <= d ->
    set_intersection_range comp k d la lb first1 last1 first2 last2 = Ok (so false false true first1 first2).
  Proof.
    intros Hk Hd. unfold set_intersection_range.
    destruct (find_intersection_so d first1 first2 B1 B2 Hd) as (s & E & I & G1 & G2 & ->). rewrite E. cbn [bind].
    apply (traverse_ok _ _ (fun s => Iint s /\ first1 <= fst s /\ first2 <= snd s)
      (fun s => so false false true (fst s) (snd s)) mu2); [|auto|unfold mu2; lia].
    clear s E I G1 G2. intros [i j] ([E|(D1 & D2 & x & y & Hx & Hy & Q1 & Q2)] & G1 & G2); cbn [fst snd] in *.
    - left. split; [exact E|]. injection E as -> ->. now rewrite !slice_nil by lia.
    - right. split; [apply pair_neq; lia|]. unfold next_intersection.
      destruct (Nat.eqb_spec i last1); [lia|]. destruct (Nat.eqb_spec j last2); [lia|]. cbn [orb].
      destruct (find_intersection_so d (S i) (S j)) as (s & E & I & M1 & M2 & E'); [lia|lia| |].
      { eapply depth_less; [|exact Hd]. lia. }
      exists x, s. unfold deref_left, rd. cbn [fst]. rewrite Hx. split; [reflexivity|]. split; [exact E|].
      split; [split; [exact I|lia]|]. split; [unfold mu2; cbn [fst snd]; lia|].
      rewrite <- E'. rewrite (slice_cons la i last1 x), (slice_cons lb j last2 y) by (auto; lia).
      rewrite setop_cons, Q1, Q2. reflexivity.
  Qed.

  Definition Idif (s : nat * nat) : Prop := s = (last1, last2) \/
    fst s < last1 /\ snd s <= last2 /\ (snd s = last2 \/ snd s < last2 /\ rel comp la (fst s) lb (snd s)).

  Lemma find_difference_so d i j : i <= last1 -> j <= last2 -> depth_bound ((last1 - i) + (last2 - j) + 1) <= d ->
    exists s, find_difference comp d la lb i last1 j last2 = Ok s /\ Idif s /\ i <= fst s /\ j <= snd s /\
      so true false false i j = so true false false (fst s) (snd s).
  Proof.
    intros Hi Hj Hd.
    destruct (find_difference_inv d i j (fun i' j' => so true false false i j = so true false false i' j') Hi Hj eq_refl)
      as (i' & j' & C1 & C2 & E & [(F & D1 & D2)|(F & ->)]).
    - intros i1 j1 x y P1 P2 -> Hx Hy Cxy. rewrite (slice_cons la i1 last1 x), (slice_cons lb j1 last2 y) by (auto; lia).
      rewrite setop_cons, Cxy. split; intros C; rewrite C; reflexivity.
    - exact Hd.
    - exists (i', j'). rewrite F. cbn [fst snd]. split; [reflexivity|]. split; [right; cbn [fst snd]; split; [lia|]; split; [lia|exact D2]|].
      split; [lia|]. split; [lia|]. exact E.
    - exists (last1, last2). rewrite F. cbn [fst snd]. split; [reflexivity|]. split; [now left|]. split; [lia|]. split; [lia|].
      rewrite E, (slice_nil la last1 last1), !setop_nil_l by lia. reflexivity.
  Qed.

  Lemma set_difference_range_ok k d : (last1 - first1) + (last2 - first2) < k ->
    depth_bound ((last1 - first1) + (last2 - first2) + 1) <= d ->
    set_difference_range comp k d la lb first1 last1 first2 last2 = Ok (so true false false first1 first2).
  Proof.
    intros Hk Hd. unfold set_difference_range.
    destruct (find_difference_so d first1 first2 B1 B2 Hd) as (s & E & I & G1 & G2 & ->). rewrite E. cbn [bind].
    apply (traverse_ok _ _ (fun s => Idif s /\ first1 <= fst s /\ first2 <= snd s)
      (fun s => so true false false (fst s) (snd s)) mu2); [|auto|unfold mu2; lia].
    clear s E I G1 G2. intros [i j] ([E|(D1 & D2 & D3)] & G1 & G2); cbn [fst snd] in *.
    - left. split; [exact E|]. injection E as -> ->. now rewrite !slice_nil by lia.
    - right. split; [apply pair_neq; lia|]. unfold next_difference.
      destruct (Nat.eqb_spec i last1); [lia|].
      destruct (find_difference_so d (S i) j) as (s & E & I & M1 & M2 & E'); [lia|lia| |].
      { eapply depth_less; [|exact Hd]. lia. }
      destruct (nth_error_ex la i ltac:(lia)) as [x Hx].
      exists x, s. unfold deref_left, rd. cbn [fst]. rewrite Hx. split; [reflexivity|]. split; [exact E|].
      split; [split; [exact I|lia]|]. split; [unfold mu2; cbn [fst snd]; lia|].
      rewrite <- E'. rewrite (slice_cons la i last1 x) by (auto; lia).
      destruct D3 as [->|(D3 & x' & y & Hx' & Hy & C)].
      + rewrite (slice_nil lb last2 last2), !setop_nil_r by lia. reflexivity.
      + assert (x' = x) by congruence. subst x'. rewrite (slice_cons lb j last2 y) by (auto; lia).
        rewrite setop_cons, C. reflexivity.
  Qed.

  Definition Isym (s : nat * nat) : Prop := fst s <= last1 /\ snd s <= last2 /\
    (fst s = last1 \/ snd s = last2 \/ fst s < last1 /\ snd s < last2 /\ ~ eqv (fst s) (snd s)).

  Lemma find_symmetric_difference_so d i j : i <= last1 -> j <= last2 -> depth_bound ((last1 - i) + (last2 - j) + 1) <= d ->
    exists s, find_symmetric_difference comp d la lb i last1 j last2 = Ok s /\ Isym s /\ i <= fst s /\ j <= snd s /\
      so true true false i j = so true true false (fst s) (snd s).
  Proof.
    intros Hi Hj Hd.
    destruct (find_symmetric_difference_inv d i j (fun i' j' => so true true false i j = so true true false i' j') Hi Hj eq_refl)
      as (i' & j' & C1 & C2 & E & F & D).
    - intros i1 j1 P1 P2 -> (x & y & Hx & Hy & Q1 & Q2).
      rewrite (slice_cons la i1 last1 x), (slice_cons lb j1 last2 y) by (auto; lia).
      rewrite setop_cons, Q1, Q2. reflexivity.
    - exact Hd.
    - exists (i', j'). rewrite F. cbn [fst snd]. split; [reflexivity|].
      split; [split; [cbn; lia|]; split; [cbn; lia|]; exact D|]. split; [lia|]. split; [lia|]. exact E.
  Qed.

  Lemma set_symmetric_difference_range_ok k d : (last1 - first1) + (last2 - first2) < k ->
    depth_bound ((last1 - first1) + (last2 - first2) + 1) <= d ->
    set_symmetric_difference_range comp k d la lb first1 last1 first2 last2 = Ok (so true true false first1 first2).
  Proof.
    intros Hk Hd. unfold set_symmetric_difference_range.
    destruct (find_symmetric_difference_so d first1 first2 B1 B2 Hd) as (s & E & I & G1 & G2 & ->). rewrite E. cbn [bind].
    apply (traverse_ok _ _ (fun s => Isym s /\ first1 <= fst s /\ first2 <= snd s)
      (fun s => so true true false (fst s) (snd s)) mu2); [|auto|unfold mu2; lia].
    clear s E I G1 G2. intros [i j] ((D1 & D2 & D3) & G1 & G2); cbn [fst snd] in *.
    unfold deref_side, symmetric_difference_in_left, next_symmetric_difference. cbn [fst snd].
    destruct (Nat.eqb_spec i last1) as [->|Ni]; [destruct (Nat.eqb_spec j last2) as [->|Nj]|]; cbn [negb bind].
    - left. split; [reflexivity|]. now rewrite !slice_nil by lia.
    - right. split; [apply pair_neq; lia|]. destruct (nth_error_ex lb j ltac:(lia)) as [y Hy].
      exists y, (last1, S j). unfold rd, mu2. rewrite Hy. cbn [fst snd]. split; [reflexivity|]. split; [reflexivity|].
      split; [unfold Isym; cbn; lia|]. split; [lia|]. rewrite (slice_nil la last1 last1), !setop_nil_l by lia.
      apply slice_cons; [lia|exact Hy].
    - right. split; [apply pair_neq; lia|]. destruct (nth_error_ex la i ltac:(lia)) as [x Hx].
      destruct (Nat.eqb_spec j last2) as [->|Nj]; cbn [negb bind].
      + exists x, (S i, last2). unfold rd, mu2. rewrite Hx. cbn [fst snd]. split; [reflexivity|]. split; [reflexivity|].
        split; [unfold Isym; cbn; lia|]. split; [lia|]. rewrite (slice_nil lb last2 last2), !setop_nil_r by lia.
        apply slice_cons; [lia|exact Hx].
      + destruct (nth_error_ex lb j ltac:(lia)) as [y Hy]. unfold rd. rewrite Hx, Hy. cbn [bind].
        rewrite (slice_cons la i last1 x), (slice_cons lb j last2 y) by (auto; lia). rewrite setop_cons.
        destruct (comp x y) eqn:C1.
        * destruct (find_symmetric_difference_so d (S i) j) as (s & E & I & M1 & M2 & E'); [lia|lia| |].
          { eapply depth_less; [|exact Hd]. lia. }
          exists x, s. split; [reflexivity|]. split; [exact E|]. split; [split; [exact I|lia]|].
          split; [unfold mu2; cbn [fst snd]; lia|]. rewrite <- E', (slice_cons lb j last2 y) by (auto; lia). reflexivity.
        * destruct (comp y x) eqn:C2.
          2: { exfalso. destruct D3 as [D3|[D3|(_ & _ & D3)]]; [lia|lia|]. apply D3. exists x, y. repeat split; assumption. }
          destruct (find_symmetric_difference_so d i (S j)) as (s & E & I & M1 & M2 & E'); [lia|lia| |].
          { eapply depth_less; [|exact Hd]. lia. }
          exists y, s. split; [reflexivity|]. split; [exact E|]. split; [split; [exact I|lia]|].
          split; [unfold mu2; cbn [fst snd]; lia|]. rewrite <- E', (slice_cons la i last1 x) by (auto; lia). reflexivity.
  Qed.
  End Fixed.
End S.
