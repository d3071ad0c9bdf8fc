(** Proofs about tpp: the algorithms over packs, and the refutations. *)
From Coq Require Import List Arith Bool ZArith Lia.
From Verif Require Import Base OrderSpec ListFacts TypModel TypSpec TypProof.
Import ListNotations.

Lemma tpp_step l f last pv (d' : nat) : pv <> 0 -> pv = (last - f) / 2 -> f < last -> f + pv < last -> last <= l ->
  (last - f =? 1) = false /\ (f + last) / 2 = f + pv.
Proof. intros. split; [apply Nat.eqb_neq; lia|]. rewrite mid_eq by lia. lia. Qed.

Lemma leaf_one f : (f + 1 - f =? 1) = true.
Proof. apply Nat.eqb_eq. lia. Qed.

Lemma tpp_all_of_lemma (l : list bool) d : deep l d -> tpp_all_of l d = Ok (forallb (fun b => b) l).
Proof.
  intros Hd. unfold tpp_all_of. destruct l as [|a t] eqn:El; [reflexivity|]. rewrite <- El in *.
  rewrite nonempty by now rewrite El.
  destruct (walk_all l (fun s b => b = forallb (fun b => b) s)
    (fun d first last _ => tpp_all_of_impl l d first last) (fun b => b) andb) with (d := d) as (b&E&R).
  - intros d' f la x -> Hx. cbn [tpp_all_of_impl]. now rewrite leaf_one, (rd_some _ _ _ Hx).
  - intros d' f la pv a' b' Hn Hp Hlt Ea Eb _ _ Hm Hlen _. cbn [tpp_all_of_impl].
    destruct (tpp_step (length l) f la pv d' Hn Hp Hlt Hm Hlen) as [-> ->]. rewrite Ea. cbn [bind]. now rewrite Eb.
  - intros x. cbn. now rewrite andb_true_r.
  - intros l1 l2 a' b' -> ->. now rewrite forallb_app.
  - now rewrite El.
  - assumption.
  - now rewrite E, R.
Qed.

Lemma tpp_any_of_lemma (l : list bool) d : deep l d -> tpp_any_of l d = Ok (existsb (fun b => b) l).
Proof.
  intros Hd. unfold tpp_any_of. destruct l as [|a t] eqn:El; [reflexivity|]. rewrite <- El in *.
  rewrite nonempty by now rewrite El.
  destruct (walk_all l (fun s b => b = existsb (fun b => b) s)
    (fun d first last _ => tpp_any_of_impl l d first last) (fun b => b) orb) with (d := d) as (b&E&R).
  - intros d' f la x -> Hx. cbn [tpp_any_of_impl]. now rewrite leaf_one, (rd_some _ _ _ Hx).
  - intros d' f la pv a' b' Hn Hp Hlt Ea Eb _ _ Hm Hlen _. cbn [tpp_any_of_impl].
    destruct (tpp_step (length l) f la pv d' Hn Hp Hlt Hm Hlen) as [-> ->]. rewrite Ea. cbn [bind]. now rewrite Eb.
  - intros x. cbn. now rewrite orb_false_r.
  - intros l1 l2 a' b' -> ->. now rewrite existsb_app.
  - now rewrite El.
  - assumption.
  - now rewrite E, R.
Qed.

Lemma tpp_none_walk (l : list bool) k d first last : first < last -> last <= length l -> last - first <= 2 ^ k ->
  k < d -> exists b, tpp_none_of_impl l d first last = Ok b
    /\ b = negb (existsb (fun b => b) (slice l first last)).
Proof.
  apply (walk_ok l (fun s b => b = negb (existsb (fun b => b) s))
    (fun d first last _ => tpp_none_of_impl l d first last) negb andb).
  - intros d' f la x -> Hx. cbn [tpp_none_of_impl]. now rewrite leaf_one, (rd_some _ _ _ Hx).
  - intros d' f la pv a' b' Hn Hp Hlt Ea Eb _ _ Hm Hlen _. cbn [tpp_none_of_impl].
    destruct (tpp_step (length l) f la pv d' Hn Hp Hlt Hm Hlen) as [-> ->]. rewrite Ea. cbn [bind]. now rewrite Eb.
  - intros x. cbn. now rewrite orb_false_r.
  - intros l1 l2 a' b' -> ->. now rewrite existsb_app, negb_orb.
Qed.

Lemma tpp_none_of_lemma (l : list bool) d : deep l d -> tpp_none_of l d = Ok (negb (existsb (fun b => b) l)).
Proof.
  intros Hd. unfold tpp_none_of. destruct l as [|a t] eqn:El; [reflexivity|]. rewrite <- El in *.
  rewrite nonempty by now rewrite El. destruct (deep_start l d Hd) as (k&H1&H2).
  destruct (tpp_none_walk l k d 0 (length l)) as (b&E&R); try lia.
  { rewrite El. cbn [length]. lia. }
  rewrite slice_full in R. now rewrite E, R.
Qed.

Lemma tpp_one_of_lemma (l : list bool) d : deep l d -> howmany (fun b => b) l <= 2 ->
  tpp_one_of l d = Ok (howmany (fun b => b) l =? 1).
Proof.
  intros Hd Hc. unfold tpp_one_of. destruct l as [|a0 t0] eqn:El; [reflexivity|]. rewrite <- El in *.
  rewrite nonempty by now rewrite El.
  destruct (walk_all l (fun s c => snd c = howmany (fun b => b) s
      /\ (howmany (fun b => b) s <= 2 -> fst c = (howmany (fun b => b) s =? 1)))
    (fun d first last _ => b <- tpp_one_of_impl l d first last ;;
       Ok (b, howmany (fun b => b) (slice l first last)))
    (fun x : bool => (x, if x then 1 else 0)) one_comb) with (d := d) as (b&E&R1&R2).
  - intros d' f la x -> Hx. cbn [tpp_one_of_impl]. rewrite leaf_one, (rd_some _ _ _ Hx). cbn [bind].
    rewrite (slice_one l f x Hx). cbn [howmany]. now rewrite Nat.add_0_r.
  - intros d' f la pv a' b' Hn Hp Hlt Ea Eb [Ra _] [Rb _] Hm Hlen (k&Hk1&Hk2). cbn [tpp_one_of_impl].
    destruct (tpp_step (length l) f la pv d' Hn Hp Hlt Hm Hlen) as [-> ->].
    destruct (tpp_one_of_impl l d' f (f + pv)) as [ba| |]; cbn [bind] in Ea; try discriminate.
    destruct (tpp_one_of_impl l d' (f + pv) la) as [bb| |]; cbn [bind] in Eb; try discriminate.
    injection Ea as <-. injection Eb as <-. cbn [bind].
    destruct (half_facts k (la - f)) as (F1&F2&F3&F4); [lia|assumption|]. rewrite <- Hp in *.
    destruct (tpp_none_walk l k d' (f + pv) la) as (bn&En&Rn); try lia.
    rewrite En. cbn [bind]. unfold one_comb. cbn [fst snd]. rewrite Rn, existsb_howmany.
    rewrite (slice_app l f (f + pv) la) by lia. now rewrite howmany_app.
  - intros x. cbn [howmany snd fst]. split; [lia|]. intros _. now destruct x.
  - intros l1 l2 a' b' [Ra Ra'] [Rb Rb']. unfold one_comb. cbn [fst snd]. rewrite howmany_app, Ra, Rb.
    split; [reflexivity|]. intros H. rewrite Ra', Rb' by lia.
    destruct (Nat.eqb_spec (howmany (fun b => b) l1) 1) as [E1|E1].
    + rewrite E1. now destruct (howmany (fun b => b) l2) as [|[|?]].
    + destruct (Nat.eqb_spec (howmany (fun b => b) l2) 1),
        (Nat.eqb_spec (howmany (fun b => b) l1 + howmany (fun b => b) l2) 1); lia.
  - now rewrite El.
  - assumption.
  - destruct (tpp_one_of_impl l d 0 (length l)) as [bb| |]; cbn [bind] in E; try discriminate.
    injection E as <-. cbn [fst] in R2. now rewrite R2.
Qed.

(** One_of of a pack that starts with two matches: the recursion over the halves. *)
Lemma ty_one_of_refuted_lemma : exists (l : list bool) d, deep l d
  /\ ty_one_of l (fun b => b) d = Ok true /\ tpp_one_of l d = Ok true /\ howmany (fun b => b) l = 3.
Proof.
  exists [true; true; true; false], 3. split; [exists 2; cbn; lia|]. repeat split; reflexivity.
Qed.

Lemma ty_one_of_empty_lemma {A} (p : A -> bool) d :
  ty_one_of [] p d = Ok true /\ tpp_one_of [] d = Ok false.
Proof. now split. Qed.

Section Extremum.
  Context {A : Type}.
  Variable key : A -> Z.

  Lemma first_max_app l1 l2 a b : first_max key l1 a -> first_max key l2 b ->
    first_max key (l1 ++ l2) (max_value key a b).
  Proof.
    intros (i&Hi&Hle1&Hlt1) (j&Hj&Hle2&Hlt2). unfold max_value.
    assert (Li : i < length l1) by (apply nth_error_Some; congruence).
    destruct (Z.ltb_spec (key a) (key b)) as [H|H].
    - exists (length l1 + j). split.
      { rewrite nth_error_app2 by lia. now replace (length l1 + j - length l1) with j by lia. }
      split; intros k y.
      + intros Hy. destruct (Nat.lt_ge_cases k (length l1)).
        * rewrite nth_error_app1 in Hy by assumption. specialize (Hle1 k y Hy). lia.
        * rewrite nth_error_app2 in Hy by assumption. now apply (Hle2 _ y) in Hy.
      + intros Hk Hy. destruct (Nat.lt_ge_cases k (length l1)).
        * rewrite nth_error_app1 in Hy by assumption. specialize (Hle1 k y Hy). lia.
        * rewrite nth_error_app2 in Hy by assumption. apply (Hlt2 _ y) in Hy; [assumption|lia].
    - exists i. split; [now rewrite nth_error_app1 by assumption|]. split; intros k y.
      + intros Hy. destruct (Nat.lt_ge_cases k (length l1)).
        * rewrite nth_error_app1 in Hy by assumption. now apply (Hle1 k).
        * rewrite nth_error_app2 in Hy by assumption. apply (Hle2 _ y) in Hy. lia.
      + intros Hk Hy. rewrite nth_error_app1 in Hy by lia. now apply (Hlt1 k).
  Qed.

  Lemma first_min_app l1 l2 a b : first_min key l1 a -> first_min key l2 b ->
    first_min key (l1 ++ l2) (min_value key a b).
  Proof.
    intros (i&Hi&Hle1&Hlt1) (j&Hj&Hle2&Hlt2). unfold min_value.
    assert (Li : i < length l1) by (apply nth_error_Some; congruence).
    destruct (Z.ltb_spec (key b) (key a)) as [H|H].
    - exists (length l1 + j). split.
      { rewrite nth_error_app2 by lia. now replace (length l1 + j - length l1) with j by lia. }
      split; intros k y.
      + intros Hy. destruct (Nat.lt_ge_cases k (length l1)).
        * rewrite nth_error_app1 in Hy by assumption. specialize (Hle1 k y Hy). lia.
        * rewrite nth_error_app2 in Hy by assumption. now apply (Hle2 _ y) in Hy.
      + intros Hk Hy. destruct (Nat.lt_ge_cases k (length l1)).
        * rewrite nth_error_app1 in Hy by assumption. specialize (Hle1 k y Hy). lia.
        * rewrite nth_error_app2 in Hy by assumption. apply (Hlt2 _ y) in Hy; [assumption|lia].
    - exists i. split; [now rewrite nth_error_app1 by assumption|]. split; intros k y.
      + intros Hy. destruct (Nat.lt_ge_cases k (length l1)).
        * rewrite nth_error_app1 in Hy by assumption. now apply (Hle1 k).
        * rewrite nth_error_app2 in Hy by assumption. apply (Hle2 _ y) in Hy. lia.
      + intros Hk Hy. rewrite nth_error_app1 in Hy by lia. now apply (Hlt1 k).
  Qed.

  Lemma first_one x : first_max key [x] x /\ first_min key [x] x.
  Proof.
    split; exists 0; (split; [reflexivity|]); split; try (intros; lia);
      intros [|[|k]] y Hy; try discriminate; injection Hy as <-; lia.
  Qed.

  Lemma tpp_max_lemma l d : l <> [] -> deep l d -> exists x, tpp_max_element l key d = Ok x /\ first_max key l x.
  Proof.
    intros Hl Hd. unfold tpp_max_element.
    apply (walk_all l (first_max key) (fun d first last _ => tpp_max_impl l key d first last)
      (fun x => x) (max_value key)) with (d := d); try assumption.
    - intros d' f la x -> Hx. cbn [tpp_max_impl]. now rewrite leaf_one, (rd_some _ _ _ Hx).
    - intros d' f la pv a' b' Hn Hp Hlt Ea Eb _ _ Hm Hlen _. cbn [tpp_max_impl].
      destruct (tpp_step (length l) f la pv d' Hn Hp Hlt Hm Hlen) as [-> ->]. rewrite Ea. cbn [bind]. now rewrite Eb.
    - apply first_one.
    - apply first_max_app.
  Qed.

  Lemma tpp_min_lemma l d : l <> [] -> deep l d -> exists x, tpp_min_element l key d = Ok x /\ first_min key l x.
  Proof.
    intros Hl Hd. unfold tpp_min_element.
    apply (walk_all l (first_min key) (fun d first last _ => tpp_min_impl l key d first last)
      (fun x => x) (min_value key)) with (d := d); try assumption.
    - intros d' f la x -> Hx. cbn [tpp_min_impl]. now rewrite leaf_one, (rd_some _ _ _ Hx).
    - intros d' f la pv a' b' Hn Hp Hlt Ea Eb _ _ Hm Hlen _. cbn [tpp_min_impl].
      destruct (tpp_step (length l) f la pv d' Hn Hp Hlt Hm Hlen) as [-> ->]. rewrite Ea. cbn [bind]. now rewrite Eb.
    - apply first_one.
    - apply first_min_app.
  Qed.
End Extremum.
