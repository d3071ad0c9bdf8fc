(** Lexicographical comparison, includes and is_permutation. *)
From Coq Require Import List Arith Bool ZArith Lia Permutation Sorted.
From Coq Require Import ZifyBool ZifyNat.
From Verif Require Import Base BaseProof SearchModel SearchSpec SearchProof SearchProof2
  OrderModel OrderSpec OrderProof OrderProof2 ListFacts.
Import ListNotations.
Ltac Zify.zify_post_hook ::= Z.div_mod_to_equations.

Section Lex.
  Context {A B : Type} (lt_ab : A -> B -> bool) (lt_ba : B -> A -> bool).
  Implicit Types (la : list A) (lb : list B).

  Notation eqv la i lb j := (same lt_ab lt_ba la i lb j).

  Inductive lexr la lb first1 first2 size : Z -> Prop :=
  | lexr_eq : (forall j, j < size -> eqv la (first1 + j) lb (first2 + j)) ->
      lexr la lb first1 first2 size 2%Z
  | lexr_lt k : k < size -> (forall j, j < k -> eqv la (first1 + j) lb (first2 + j)) ->
      rel lt_ab la (first1 + k) lb (first2 + k) -> lexr la lb first1 first2 size (-1)%Z
  | lexr_gt k : k < size -> (forall j, j < k -> eqv la (first1 + j) lb (first2 + j)) ->
      ~ rel lt_ab la (first1 + k) lb (first2 + k) ->
      rel lt_ba lb (first2 + k) la (first1 + k) -> lexr la lb first1 first2 size 1%Z.

  Lemma lexr_app la lb first1 first2 s1 s2 f g :
    lexr la lb first1 first2 s1 f ->
    (f = 2%Z -> lexr la lb (first1 + s1) (first2 + s1) s2 g) ->
    (f <> 2%Z -> g = f) ->
    lexr la lb first1 first2 (s1 + s2) g.
  Proof.
    intros H1 H2 H3. destruct H1 as [HE|k Hk HE Hr|k Hk HE Hn Hr].
    - specialize (H2 eq_refl). clear H3.
      assert (HJ : forall m, (forall j, j < m -> eqv la (first1 + s1 + j) lb (first2 + s1 + j)) ->
                  forall j, j < s1 + m -> eqv la (first1 + j) lb (first2 + j)).
      { intros m Hm j Hj. destruct (Nat.lt_ge_cases j s1) as [H|H]; [now apply HE|].
        specialize (Hm (j - s1) ltac:(lia)).
        replace (first1 + s1 + (j - s1)) with (first1 + j) in Hm by lia.
        replace (first2 + s1 + (j - s1)) with (first2 + j) in Hm by lia. exact Hm. }
      destruct H2 as [HE2|k Hk HE2 Hr|k Hk HE2 Hn Hr].
      + constructor. now apply HJ.
      + apply lexr_lt with (s1 + k); [lia|now apply HJ|]. now rewrite !Nat.add_assoc.
      + apply lexr_gt with (s1 + k); [lia|now apply HJ| |]; now rewrite !Nat.add_assoc.
    - rewrite H3 by discriminate. apply lexr_lt with k; auto. lia.
    - rewrite H3 by discriminate. apply lexr_gt with k; auto. lia.
  Qed.

  Lemma lex_impl_ra_ok la lb d : forall first1 first2 size f,
    1 <= size -> first1 + size <= length la -> first2 + size <= length lb ->
    Nat.log2_up size < d ->
    exists g, lexicographical_compare_impl_ra lt_ab lt_ba d la lb first1 first2 size f = Ok g /\
      (f = 2%Z -> lexr la lb first1 first2 size g) /\ (f <> 2%Z -> g = f).
  Proof.
    induction d as [|d IH]; intros first1 first2 size f Hs H1 H2 Hd; [lia|].
    cbn [lexicographical_compare_impl_ra].
    destruct (f =? 2)%Z eqn:Ef; cbn [negb].
    2: { exists f. split; [reflexivity|]. split; [lia|reflexivity]. }
    assert (f = 2%Z) by lia. subst f. clear Ef.
    destruct (size =? 1) eqn:E; nb.
    - subst size. destruct (rd_ex la first1 ltac:(lia)) as (x&Hx&Rx).
      destruct (rd_ex lb first2 ltac:(lia)) as (y&Hy&Ry). rewrite Rx, Ry. cbn [bind].
      eexists. split; [reflexivity|]. split; [intros _|congruence].
      assert (H0 : forall j, j < 0 -> eqv la (first1 + j) lb (first2 + j)) by (intros; lia).
      destruct (lt_ab x y) eqn:E1; [|destruct (lt_ba y x) eqn:E2].
      + apply lexr_lt with 0; [lia|exact H0|]. rewrite !Nat.add_0_r. exists x, y. auto.
      + apply lexr_gt with 0; [lia|exact H0| |]; rewrite !Nat.add_0_r.
        * rewrite (rel_val _ _ _ _ _ _ _ Hx Hy). congruence.
        * exists y, x. auto.
      + constructor. intros j Hj. assert (j = 0) by lia. subst j. rewrite !Nat.add_0_r.
        split; [rewrite (rel_val _ _ _ _ _ _ _ Hx Hy)|rewrite (rel_val _ _ _ _ _ _ _ Hy Hx)]; congruence.
    - pose proof (log2_half size ltac:(lia)). pose proof (log2_half' size ltac:(lia)).
      destruct (IH first1 first2 (size / 2) 2%Z) as (g1&E1&G1&_); try lia.
      specialize (G1 eq_refl). rewrite E1. cbn [bind].
      destruct (IH (first1 + size / 2) (first2 + size / 2) (size - size / 2) g1) as (g&E2&G2&G3); try lia.
      exists g. split; [exact E2|]. split; [intros _|congruence].
      replace size with (size / 2 + (size - size / 2)) by lia.
      eapply lexr_app; eauto.
  Qed.

  Lemma lex_impl_ok la lb d first1 last1 first2 last2 :
    valid la first1 last1 -> valid lb first2 last2 -> depth_bound (last1 - first1) <= d ->
    exists i j, lexicographical_compare_impl lt_ab lt_ba d la lb first1 last1 first2 last2 = Ok (i, j) /\
      let n := Nat.min (last1 - first1) (last2 - first2) in
      ((i = first1 + n /\ j = first2 + n /\ lexr la lb first1 first2 n 2%Z) \/
       (i = last1 /\ j < last2 /\ first2 <= j /\ lexr la lb first1 first2 n (-1)%Z) \/
       (i < last1 /\ first1 <= i /\ j = last2 /\ lexr la lb first1 first2 n 1%Z)).
  Proof.
    intros [V1 V2] [V3 V4] Hd. unfold lexicographical_compare_impl.
    set (n := Nat.min (last1 - first1) (last2 - first2)).
    destruct (loop_inv (fun s => (snd s =? last2) || (fst s =? last1))
       (fun s => x <- rd la (fst s) ;; y <- rd lb (snd s) ;;
           Ok (if lt_ab x y then (last1, snd s)
               else if lt_ba y x then (fst s, last2)
               else (S (fst s), S (snd s))))
       (fun s => (exists k, k <= n /\ fst s = first1 + k /\ snd s = first2 + k /\
                   lexr la lb first1 first2 k 2%Z) \/
                 (fst s = last1 /\ snd s < last2 /\ first2 <= snd s /\ lexr la lb first1 first2 n (-1)%Z) \/
                 (fst s < last1 /\ first1 <= fst s /\ snd s = last2 /\ lexr la lb first1 first2 n 1%Z))
       (fun s => if (snd s =? last2) || (fst s =? last1) then 0 else last1 - fst s)) with
       (k := S (last1 - first1)) (s := (first1, first2)) as ([i j]&Hl&HI&Hb).
    - intros [i j] HI Hb. cbn [fst snd] in *. 
      apply orb_false_iff in Hb. destruct Hb as [Hb1 Hb2]. rewrite Hb1, Hb2. cbn [orb]. nb.
      destruct HI as [(k&Hk&->&->&HE)|[HI|HI]]; [|lia|lia].
      inversion HE as [HE'| |]; subst.
      destruct (rd_ex la (first1 + k) ltac:(lia)) as (x&Hx&Rx).
      destruct (rd_ex lb (first2 + k) ltac:(lia)) as (y&Hy&Ry). rewrite Rx, Ry. cbn [bind].
      eexists. split; [reflexivity|].
      destruct (lt_ab x y) eqn:E1; [|destruct (lt_ba y x) eqn:E2]; cbn [fst snd].
      + split.
        * right. left. repeat split; try lia. apply lexr_lt with k; [lia|exact HE'|].
          exists x, y. auto.
        * rewrite Nat.eqb_refl, orb_true_r. lia.
      + split.
        * right. right. repeat split; try lia. apply lexr_gt with k; [lia|exact HE'| |].
          { rewrite (rel_val _ _ _ _ _ _ _ Hx Hy). congruence. }
          { exists y, x. auto. }
        * rewrite Nat.eqb_refl. cbn [orb]. lia.
      + split.
        * left. exists (S k). repeat split; try lia. constructor. intros j Hj.
          destruct (Nat.eq_dec j k) as [->|Hne]; [|apply HE'; lia].
          split; [rewrite (rel_val _ _ _ _ _ _ _ Hx Hy)|rewrite (rel_val _ _ _ _ _ _ _ Hy Hx)]; congruence.
        * destruct (_ || _); lia.
    - left. exists 0. cbn [fst snd]. repeat split; try lia. constructor. intros; lia.
    - cbn [fst snd]. destruct (_ || _); lia.
    - exists i, j. split; [eapply dbl_stop_correct; [exact Hl|now apply depth_dbl]|]. cbv zeta.
      cbn [fst snd] in *. destruct HI as [(k&Hk&->&->&HE)|HI]; [|right; exact HI].
      left. assert (k = n) by lia. subst k. auto.
  Qed.

  (** tristate core: both categories compute this. *)
  Lemma tristate_ok c la lb d first1 last1 first2 last2 :
    valid la first1 last1 -> valid lb first2 last2 -> depth_bound (last1 - first1) <= d ->
    exists z, tristate_lexicographical_compare lt_ab lt_ba c d la lb first1 last1 first2 last2 = Ok z /\
      lexicographical_compare lt_ab lt_ba c d la lb first1 last1 first2 last2 = Ok (z <? 0)%Z /\
      let n := Nat.min (last1 - first1) (last2 - first2) in
      exists f, lexr la lb first1 first2 n f /\
        z = (if (f =? 2)%Z then
               if last1 - first1 <? last2 - first2 then (-1)%Z
               else if last2 - first2 <? last1 - first1 then 1%Z else 0%Z
             else f).
  Proof.
    intros V1 V2 Hd. destruct c.
    - destruct V1 as [V1 V2'], V2 as [V3 V4].
      unfold tristate_lexicographical_compare, lexicographical_compare.
      destruct (first2 =? last2) eqn:E2; nb.
      + subst last2. exists (if first1 =? last1 then 0%Z else 1%Z). split; [reflexivity|].
        split; [destruct (first1 =? last1); reflexivity|]. cbv zeta.
        exists 2%Z. split; [constructor; intros; lia|]. cbn [Z.eqb Pos.eqb].
        destruct (first1 =? last1) eqn:E1; nb.
        * subst last1. rewrite !Nat.sub_diag. reflexivity.
        * destruct (last1 - first1 <? first2 - first2) eqn:E3; nb; [lia|].
          destruct (first2 - first2 <? last1 - first1) eqn:E4; nb; [reflexivity|lia].
      + destruct (first1 =? last1) eqn:E1; nb.
        * subst last1. exists (-1)%Z. split; [reflexivity|]. split; [reflexivity|].
          exists 2%Z. split; [constructor; intros; lia|]. cbn [Z.eqb Pos.eqb].
          destruct (first1 - first1 <? last2 - first2) eqn:E3; nb; [reflexivity|lia].
        * set (n := Nat.min (last1 - first1) (last2 - first2)).
          destruct (lex_impl_ra_ok la lb d first1 first2 n 2%Z) as (g&Eg&Hg&_); try lia.
          { apply depth_ra. etransitivity; [apply depth_mono|exact Hd]. lia. }
          specialize (Hg eq_refl). rewrite Eg. cbn [bind].
          eexists. split; [reflexivity|]. split.
          { f_equal. destruct (g =? 2)%Z eqn:E; cbn [negb andb].
            - assert (g = 2%Z) by lia. subst g.
              destruct (last1 - first1 <? last2 - first2); [reflexivity|].
              destruct (last2 - first2 <? last1 - first1); reflexivity.
            - now rewrite orb_false_r. }
          exists g. split; [exact Hg|]. destruct (g =? 2)%Z; reflexivity.
    - unfold tristate_lexicographical_compare, lexicographical_compare.
      destruct (lex_impl_ok la lb d first1 last1 first2 last2 V1 V2 Hd) as (i&j&E&HI).
      destruct V1 as [V1 V2'], V2 as [V3 V4].
      rewrite E. cbn [bind fst snd]. cbv zeta in *.
      set (n := Nat.min (last1 - first1) (last2 - first2)) in *.
      destruct HI as [(->&->&HE)|[(->&Hj&Hj'&HE)|(Hi&Hi'&->&HE)]].
      + destruct (first2 + n =? last2) eqn:E2; nb.
        * exists (if first1 + n =? last1 then 0%Z else 1%Z). split; [reflexivity|].
          split; [destruct (first1 + n =? last1); reflexivity|].
          exists 2%Z. split; [exact HE|]. cbn [Z.eqb Pos.eqb].
          destruct (last1 - first1 <? last2 - first2) eqn:E3; nb; [lia|].
          destruct (first1 + n =? last1) eqn:E1; nb.
          -- destruct (last2 - first2 <? last1 - first1) eqn:E4; nb; [lia|reflexivity].
          -- destruct (last2 - first2 <? last1 - first1) eqn:E4; nb; [reflexivity|lia].
        * destruct (first1 + n =? last1) eqn:E1; nb; [|lia].
          exists (-1)%Z. split; [reflexivity|]. split; [reflexivity|].
          exists 2%Z. split; [exact HE|]. cbn [Z.eqb Pos.eqb].
          destruct (last1 - first1 <? last2 - first2) eqn:E3; nb; [reflexivity|lia].
      + destruct (j =? last2) eqn:E2; nb; [lia|]. rewrite Nat.eqb_refl.
        exists (-1)%Z. split; [reflexivity|]. split; [reflexivity|].
        exists (-1)%Z. split; [exact HE|]. reflexivity.
      + rewrite Nat.eqb_refl. destruct (i =? last1) eqn:E2; nb; [lia|].
        exists 1%Z. split; [reflexivity|]. split; [reflexivity|].
        exists 1%Z. split; [exact HE|]. reflexivity.
  Qed.
End Lex.

Lemma same_sym {A B} (ab : A -> B -> bool) (ba : B -> A -> bool) la i lb j :
  same ab ba la i lb j -> same ba ab lb j la i.
Proof. intros [H1 H2]. now split. Qed.

Section LexSpec.
  Context {A B : Type} (lt_ab : A -> B -> bool) (lt_ba : B -> A -> bool).
  Variables (la : list A) (lb : list B) (first1 last1 first2 last2 : nat).
  Hypothesis V1 : valid la first1 last1.
  Hypothesis V2 : valid lb first2 last2.

  Notation n := (Nat.min (last1 - first1) (last2 - first2)).
  Notation R := (lexr lt_ab lt_ba la lb first1 first2 n).
  Notation less12 := (lex_less lt_ab lt_ba la first1 last1 lb first2 last2).
  Notation less21 := (lex_less lt_ba lt_ab lb first2 last2 la first1 last1).
  Notation equal12 := (lex_equal lt_ab lt_ba la first1 last1 lb first2 last2).

  Definition zval (f : Z) : Z :=
    if (f =? 2)%Z then
               if last1 - first1 <? last2 - first2 then (-1)%Z
               else if last2 - first2 <? last1 - first1 then 1%Z else 0%Z
             else f.

  Lemma lexr_less f : R f -> ((zval f < 0)%Z <-> less12).
  Proof.
    destruct V1 as [V1a V1b], V2 as [V2a V2b]. intros H. unfold zval.
    destruct H as [HE|k Hk HE Hr|k Hk HE Hn Hr]; cbn [Z.eqb Pos.eqb].
    - split.
      + destruct (last1 - first1 <? last2 - first2) eqn:E; nb.
        * intros _. exists (last1 - first1). split; [lia|]. split; [lia|]. split; [|left; lia].
          intros j Hj. apply HE. lia.
        * destruct (_ <? _); lia.
      + intros (k&Hk1&Hk2&HE'&Hd).
        destruct (Nat.eq_dec (first1 + k) last1) as [He|Hne].
        * destruct (last1 - first1 <? last2 - first2) eqn:E; nb; lia.
        * exfalso. destruct Hd as [Hd|Hd]; [lia|].
          destruct (HE k ltac:(lia)) as [H _]. contradiction.
    - split; [intros _|lia]. exists k. split; [lia|]. split; [lia|]. split; [exact HE|now right].
    - split; [lia|]. intros (k'&Hk1&Hk2&HE'&Hd). exfalso.
      destruct (Nat.lt_trichotomy k k') as [H|[->|H]].
      + destruct (HE' k H) as [_ H']. contradiction.
      + destruct Hd as [Hd|Hd]; [lia|contradiction].
      + destruct Hd as [Hd|Hd]; [lia|]. destruct (HE k' H) as [H' _]. contradiction.
  Qed.

  Lemma lexr_equal f : R f -> ((zval f = 0)%Z <-> equal12).
  Proof.
    destruct V1 as [V1a V1b], V2 as [V2a V2b]. intros H. unfold zval.
    destruct H as [HE|k Hk HE Hr|k Hk HE Hn Hr]; cbn [Z.eqb Pos.eqb].
    - split.
      + destruct (last1 - first1 <? last2 - first2) eqn:E; nb; [lia|].
        destruct (last2 - first2 <? last1 - first1) eqn:E'; nb; [lia|]. intros _.
        split; [lia|]. intros j Hj. apply HE. lia.
      + intros [Hl _]. rewrite Hl, Nat.ltb_irrefl. reflexivity.
    - split; [lia|]. intros [Hl HE']. exfalso. destruct (HE' k ltac:(lia)) as [H _]. contradiction.
    - split; [lia|]. intros [Hl HE']. exfalso. destruct (HE' k ltac:(lia)) as [_ H]. contradiction.
  Qed.

  Lemma lexr_greater f :
    (forall x y, lt_ab x y = true -> lt_ba y x = false) ->
    R f -> ((0 < zval f)%Z <-> less21).
  Proof.
    intros HA. destruct V1 as [V1a V1b], V2 as [V2a V2b]. intros H. unfold zval.
    destruct H as [HE|k Hk HE Hr|k Hk HE Hn Hr]; cbn [Z.eqb Pos.eqb].
    - split.
      + destruct (last1 - first1 <? last2 - first2) eqn:E; nb; [lia|].
        destruct (last2 - first2 <? last1 - first1) eqn:E'; nb; [|lia]. intros _.
        exists (last2 - first2). split; [lia|]. split; [lia|]. split; [|left; lia].
        intros j Hj. apply same_sym, HE. lia.
      + intros (k&Hk1&Hk2&HE'&Hd).
        destruct (Nat.eq_dec (first2 + k) last2) as [He|Hne].
        * destruct (last1 - first1 <? last2 - first2) eqn:E; nb; [lia|].
          destruct (last2 - first2 <? last1 - first1) eqn:E'; nb; lia.
        * exfalso. destruct Hd as [Hd|Hd]; [lia|].
          destruct (HE k ltac:(lia)) as [_ H]. contradiction.
    - split; [lia|]. intros (k'&Hk1&Hk2&HE'&Hd). exfalso.
      destruct (Nat.lt_trichotomy k k') as [H|[->|H]].
      + destruct (HE' k H) as [_ H']. contradiction.
      + destruct Hd as [Hd|Hd]; [lia|].
        destruct Hr as (x&y&Hx&Hy&Hr), Hd as (y'&x'&Hy'&Hx'&Hd).
        assert (x' = x) by congruence. assert (y' = y) by congruence. subst.
        rewrite (HA _ _ Hr) in Hd. discriminate.
      + destruct Hd as [Hd|Hd]; [lia|]. destruct (HE k' H) as [_ H']. contradiction.
    - split; [intros _|lia]. exists k. split; [lia|]. split; [lia|].
      split; [|now right]. intros j Hj. apply same_sym. now apply HE.
  Qed.
End LexSpec.

Lemma lexicographical_compare_correct_lemma {A B} (lt_ab : A -> B -> bool) (lt_ba : B -> A -> bool)
    c d la lb first1 last1 first2 last2 :
  valid la first1 last1 -> valid lb first2 last2 -> depth_bound (last1 - first1) <= d ->
  exists b, lexicographical_compare lt_ab lt_ba c d la lb first1 last1 first2 last2 = Ok b /\
    (b = true <-> lex_less lt_ab lt_ba la first1 last1 lb first2 last2).
Proof.
  intros V1 V2 Hd.
  destruct (tristate_ok lt_ab lt_ba c la lb d first1 last1 first2 last2 V1 V2 Hd) as (z&_&E&f&Hf&Hz).
  exists (z <? 0)%Z. split; [exact E|].
  rewrite Z.ltb_lt. rewrite Hz. now apply lexr_less.
Qed.

Lemma tristate_correct_lemma {A B} (lt_ab : A -> B -> bool) (lt_ba : B -> A -> bool)
    c d la lb first1 last1 first2 last2 :
  valid la first1 last1 -> valid lb first2 last2 -> depth_bound (last1 - first1) <= d ->
  (forall x y, lt_ab x y = true -> lt_ba y x = false) ->
  exists z, tristate_lexicographical_compare lt_ab lt_ba c d la lb first1 last1 first2 last2 = Ok z /\
    ((z < 0)%Z <-> lex_less lt_ab lt_ba la first1 last1 lb first2 last2) /\
    (z = 0%Z <-> lex_equal lt_ab lt_ba la first1 last1 lb first2 last2) /\
    ((0 < z)%Z <-> lex_less lt_ba lt_ab lb first2 last2 la first1 last1).
Proof.
  intros V1 V2 Hd HA.
  destruct (tristate_ok lt_ab lt_ba c la lb d first1 last1 first2 last2 V1 V2 Hd) as (z&E&_&f&Hf&Hz).
  exists z. split; [exact E|]. rewrite Hz.
  split; [now apply lexr_less|]. split; [now apply lexr_equal|now apply lexr_greater].
Qed.

(** *** The induced order on lists *)
Section LexOrder.
  Context {A : Type} (comp : A -> A -> bool).

  Fixpoint lexl (xs ys : list A) : bool :=
    match ys with
    | [] => false
    | y :: ys' =>
        match xs with
        | [] => true
        | x :: xs' => if comp x y then true else if comp y x then false else lexl xs' ys'
        end
    end.

  Lemma rel_cons x xs y ys i j :
    rel comp (x :: xs) (S i) (y :: ys) (S j) <-> rel comp xs i ys j.
  Proof. reflexivity. Qed.

  Lemma lexl_less xs : forall ys,
    lexl xs ys = true <-> lex_less comp comp xs 0 (length xs) ys 0 (length ys).
  Proof.
    induction xs as [|x xs IH]; intros [|y ys]; cbn [lexl].
    - split; [discriminate|]. intros (k&Hk1&Hk2&_). cbn in *. lia.
    - split; [intros _|reflexivity]. exists 0. cbn. repeat split; try lia.
    - split; [discriminate|]. intros (k&Hk1&Hk2&_). cbn in *. lia.
    - destruct (comp x y) eqn:E1; [|destruct (comp y x) eqn:E2].
      + split; [intros _|reflexivity]. exists 0. cbn. repeat split; try lia. right. exists x, y. auto.
      + split; [discriminate|]. intros ([|k]&Hk1&Hk2&HE&Hd); cbn in *.
        * destruct Hd as [Hd|(a&b&[= <-]&[= <-]&Hr)]; [lia|congruence].
        * destruct (HE 0 ltac:(lia)) as [_ Hn]. exfalso. apply Hn. exists y, x. auto.
      + rewrite IH. split.
        * intros (k&Hk1&Hk2&HE&Hd). exists (S k). cbn [length Nat.add] in *.
          split; [lia|]. split; [lia|]. split.
          { intros [|j] Hj; [|apply (HE j); lia].
            split; intros (a&b&[= <-]&[= <-]&Hr); congruence. }
          { destruct Hd as [Hd|Hd]; [left; lia|right; exact Hd]. }
        * intros ([|k]&Hk1&Hk2&HE&Hd); cbn [length Nat.add] in *.
          { destruct Hd as [Hd|(a&b&[= <-]&[= <-]&Hr)]; [lia|congruence]. }
          exists k. cbn [Nat.add]. split; [lia|]. split; [lia|]. split.
          { intros j Hj. apply (HE (S j)). lia. }
          { destruct Hd as [Hd|Hd]; [left; lia|right; exact Hd]. }
  Qed.

  Hypothesis W : strict_weak_order comp.

  Lemma lexl_irr xs : lexl xs xs = false.
  Proof. induction xs as [|x xs IH]; cbn; [reflexivity|]. now rewrite (swo_irr comp W). Qed.

  Ltac swo_solve :=
    match goal with
    | H1 : comp ?x ?y = true, H2 : comp ?y ?z = true, H3 : comp ?x ?z = false |- _ =>
        rewrite (swo_trans comp W _ _ _ H1 H2) in H3; discriminate
    | H1 : comp ?x ?y = false, H2 : comp ?y ?z = false, H3 : comp ?x ?z = true |- _ =>
        rewrite (swo_neg comp W _ _ _ H1 H2) in H3; discriminate
    | H1 : comp ?x ?y = true, H2 : comp ?y ?x = true |- _ =>
        rewrite (swo_asym comp W _ _ H1) in H2; discriminate
    end.

  Lemma lexl_trans xs : forall ys zs, lexl xs ys = true -> lexl ys zs = true -> lexl xs zs = true.
  Proof.
    induction xs as [|x xs IH]; intros [|y ys] [|z zs]; cbn; try congruence.
    destruct (comp x y) eqn:E1; [|destruct (comp y x) eqn:E2; [discriminate|]];
    (destruct (comp y z) eqn:E3; [|destruct (comp z y) eqn:E4; [discriminate|]]);
    (destruct (comp x z) eqn:E5; [reflexivity|]);
    (destruct (comp z x) eqn:E6); intros H1 H2; try swo_solve.
    now apply (IH ys zs).
  Qed.

  Lemma lexl_neg xs : forall ys zs, lexl xs ys = false -> lexl ys zs = false -> lexl xs zs = false.
  Proof.
    induction xs as [|x xs IH]; intros [|y ys] [|z zs]; cbn; try congruence.
    destruct (comp x y) eqn:E1; [discriminate|];
    (destruct (comp y x) eqn:E2);
    (destruct (comp y z) eqn:E3; [discriminate|]; destruct (comp z y) eqn:E4);
    (destruct (comp x z) eqn:E5);
    (destruct (comp z x) eqn:E6); intros H1 H2; try swo_solve; try reflexivity.
    now apply (IH ys zs).
  Qed.

  Lemma lexl_swo : strict_weak_order lexl.
  Proof.
    split; [exact lexl_irr|]. split; [intros x y z; apply lexl_trans|].
    intros x y z [H1 H2] [H3 H4]. split; eapply lexl_neg; eauto.
  Qed.

  Definition lex_result c xs ys : bool :=
    match lexicographical_compare comp comp c (depth_bound (length xs)) xs ys
            0 (length xs) 0 (length ys) with
    | Ok b => b
    | _ => false
    end.

  Lemma lex_result_lexl c xs ys : lex_result c xs ys = lexl xs ys.
  Proof.
    unfold lex_result.
    destruct (lexicographical_compare_correct_lemma comp comp c (depth_bound (length xs)) xs ys
      0 (length xs) 0 (length ys)) as (b&E&Hb).
    { split; lia. } { split; lia. } { now rewrite Nat.sub_0_r. }
    rewrite E. rewrite <- lexl_less in Hb. destruct b, (lexl xs ys); try reflexivity.
    - symmetry. now apply Hb.
    - now apply Hb.
  Qed.

  Lemma lexicographical_compare_swo_lemma c : strict_weak_order (fun xs ys =>
    match lexicographical_compare comp comp c (depth_bound (length xs)) xs ys
            0 (length xs) 0 (length ys) with
    | Ok b => b
    | _ => false
    end).
  Proof.
    change (strict_weak_order (lex_result c)).
    destruct lexl_swo as (H1&H2&H3). split; [|split].
    - intros x. rewrite lex_result_lexl. apply H1.
    - intros x y z. rewrite !lex_result_lexl. apply H2.
    - intros x y z. unfold equivalent. rewrite !lex_result_lexl. apply H3.
  Qed.
End LexOrder.
