(** Proofs about the algorithms over lists of types. *)
From Coq Require Import List Arith Bool ZArith Lia.
From Verif Require Import Base FixModel OrderSpec ListFacts SearchSpec NumSpec TypModel TypSpec.
Import ListNotations.

Lemma half_facts k n : 2 <= n -> n <= 2 ^ S k -> 1 <= n / 2 /\ n / 2 < n /\ n / 2 <= 2 ^ k /\ n - n / 2 <= 2 ^ k.
Proof.
  intros H1 H2. cbn [Nat.pow] in H2.
  pose proof (Nat.div_mod n 2 ltac:(lia)) as E. pose proof (Nat.mod_upper_bound n 2 ltac:(lia)). lia.
Qed.

Lemma half_zero n : 1 <= n -> (n / 2 =? 0) = (n =? 1).
Proof.
  intros H. pose proof (Nat.div_mod n 2 ltac:(lia)) as E. pose proof (Nat.mod_upper_bound n 2 ltac:(lia)).
  destruct (Nat.eqb_spec (n / 2) 0), (Nat.eqb_spec n 1); lia.
Qed.

Lemma mid_eq first last : first <= last -> (first + last) / 2 = first + (last - first) / 2.
Proof.
  intros H. replace (first + last) with ((last - first) + first * 2) by lia. rewrite Nat.div_add by lia. lia.
Qed.

Lemma slice_one {A} (l : list A) i x : nth_error l i = Some x -> slice l i (i + 1) = [x].
Proof.
  intros H. rewrite (slice_cons l i (i + 1) x) by (assumption || lia). f_equal. apply slice_nil. lia.
Qed.

Lemma howmany_app {A} (p : A -> bool) l1 l2 : howmany p (l1 ++ l2) = howmany p l1 + howmany p l2.
Proof. induction l1 as [|x t IH]; [reflexivity|]. cbn [app howmany]. rewrite IH. lia. Qed.

Lemma deep_start {A} (l : list A) d : deep l d -> exists k, length l - 0 <= 2 ^ k /\ k < d.
Proof. intros (k&H1&H2). exists k. rewrite Nat.sub_0_r. now split. Qed.

(** Every divide-and-conquer algorithm here is [walk], with a leaf and a combination. *)
Section Walk.
  Context {A B : Type}.
  Variables (l : list A) (R : list A -> B -> Prop) (f : nat -> nat -> nat -> nat -> res B).
  Variables (leaf : A -> B) (comb : B -> B -> B).
  Hypothesis Hf1 : forall d first last x, last = first + 1 -> nth_error l first = Some x ->
    f (S d) first last 0 = Ok (leaf x).
  Hypothesis Hf2 : forall d first last pivot a b, pivot <> 0 -> pivot = (last - first) / 2 -> first < last ->
    f d first (first + pivot) (pivot / 2) = Ok a ->
    f d (first + pivot) last ((last - first - pivot) / 2) = Ok b ->
    R (slice l first (first + pivot)) a -> R (slice l (first + pivot) last) b ->
    first + pivot < last -> last <= length l -> (exists k, last - first <= 2 ^ S k /\ k < d) ->
    f (S d) first last pivot = Ok (comb a b).
  Hypothesis HR1 : forall x, R [x] (leaf x).
  Hypothesis HR2 : forall l1 l2 a b, R l1 a -> R l2 b -> R (l1 ++ l2) (comb a b).

  Lemma walk_ok : forall k d first last, first < last -> last <= length l -> last - first <= 2 ^ k -> k < d ->
    exists b, f d first last ((last - first) / 2) = Ok b /\ R (slice l first last) b.
  Proof.
    induction k as [|k IH]; intros d first last H1 H2 H3 H4; (destruct d as [|d]; [lia|]).
    - cbn [Nat.pow] in H3. assert (last = first + 1) by lia. subst last.
      destruct (nth_error l first) as [x|] eqn:E; [|apply nth_error_None in E; lia].
      replace (first + 1 - first) with 1 by lia. exists (leaf x). split; [now apply Hf1|].
      rewrite (slice_one l first x E). apply HR1.
    - destruct (Nat.eq_dec (last - first) 1) as [E1|E1].
      + assert (last = first + 1) by lia. subst last.
        destruct (nth_error l first) as [x|] eqn:E; [|apply nth_error_None in E; lia].
        rewrite E1. exists (leaf x). split; [now apply Hf1|].
        rewrite (slice_one l first x E). apply HR1.
      + destruct (half_facts k (last - first) ltac:(lia) H3) as (F1&F2&F3&F4).
        remember ((last - first) / 2) as pv eqn:Epv.
        destruct (IH d first (first + pv) ltac:(lia) ltac:(lia) ltac:(lia) ltac:(lia)) as (a&Ea&Ra).
        destruct (IH d (first + pv) last ltac:(lia) ltac:(lia) ltac:(lia) ltac:(lia)) as (b&Eb&Rb).
        exists (comb a b). split.
        * apply Hf2; try assumption; try lia.
          -- now replace (first + pv - first) with pv in Ea by lia.
          -- now replace (last - first - pv) with (last - (first + pv)) by lia.
          -- exists k. split; [exact H3|lia].
        * rewrite (slice_app l first (first + pv) last) by lia. now apply HR2.
  Qed.

  Lemma walk_all d : l <> [] -> deep l d -> exists b, f d 0 (length l) (length l / 2) = Ok b /\ R l b.
  Proof.
    intros Hl Hd. destruct (deep_start l d Hd) as (k&H1&H2).
    destruct (walk_ok k d 0 (length l)) as (b&E&Rb); try lia.
    { destruct l; [congruence|cbn [length]; lia]. }
    rewrite Nat.sub_0_r in E. rewrite slice_full in Rb. now exists b.
  Qed.
End Walk.

Lemma rd_some {A} (l : list A) i x : nth_error l i = Some x -> rd l i = Ok x.
Proof. unfold rd. now intros ->. Qed.

Section Bool.
  Context {A : Type}.
  Variable p : A -> bool.

  Lemma pivot_nz (a : nat) : a <> 0 -> (a =? 0) = false.
  Proof. apply Nat.eqb_neq. Qed.

  Lemma nonempty (l : list A) : l <> [] -> (length l =? 0) = false.
  Proof. destruct l; [congruence|reflexivity]. Qed.

  Lemma ty_all_of_lemma (l : list A) d : deep l d -> ty_all_of l p d = Ok (forallb p l).
  Proof.
    intros Hd. unfold ty_all_of. destruct l as [|a t] eqn:El; [reflexivity|]. rewrite <- El in *.
    rewrite nonempty by now rewrite El.
    destruct (walk_all l (fun s b => b = forallb p s) (ty_all_of_impl l p) p andb) with (d := d) as (b&E&R).
    - intros d' f la x _ Hx. cbn [ty_all_of_impl Nat.eqb]. now rewrite (rd_some _ _ _ Hx).
    - intros d' f la pv a' b' Hn _ _ Ea Eb _ _ _ _ _. cbn [ty_all_of_impl].
      rewrite pivot_nz by assumption. rewrite Ea. cbn [bind]. now rewrite Eb.
    - intros x. cbn. now rewrite andb_true_r.
    - intros l1 l2 a' b' -> ->. now rewrite forallb_app.
    - now rewrite El.
    - assumption.
    - now rewrite E, R.
  Qed.

  Lemma ty_any_of_lemma (l : list A) d : deep l d -> ty_any_of l p d = Ok (existsb p l).
  Proof.
    intros Hd. unfold ty_any_of. destruct l as [|a t] eqn:El; [reflexivity|]. rewrite <- El in *.
    rewrite nonempty by now rewrite El.
    destruct (walk_all l (fun s b => b = existsb p s) (ty_any_of_impl l p) p orb) with (d := d) as (b&E&R).
    - intros d' f la x _ Hx. cbn [ty_any_of_impl Nat.eqb]. now rewrite (rd_some _ _ _ Hx).
    - intros d' f la pv a' b' Hn _ _ Ea Eb _ _ _ _ _. cbn [ty_any_of_impl].
      rewrite pivot_nz by assumption. rewrite Ea. cbn [bind]. now rewrite Eb.
    - intros x. cbn. now rewrite orb_false_r.
    - intros l1 l2 a' b' -> ->. now rewrite existsb_app.
    - now rewrite El.
    - assumption.
    - now rewrite E, R.
  Qed.

  Lemma ty_none_walk (l : list A) k d first last : first < last -> last <= length l -> last - first <= 2 ^ k ->
    k < d -> exists b, ty_none_of_impl l p d first last ((last - first) / 2) = Ok b
      /\ b = negb (existsb p (slice l first last)).
  Proof.
    apply (walk_ok l (fun s b => b = negb (existsb p s)) (ty_none_of_impl l p) (fun x => negb (p x)) andb).
    - intros d' f la x _ Hx. cbn [ty_none_of_impl Nat.eqb]. now rewrite (rd_some _ _ _ Hx).
    - intros d' f la pv a' b' Hn _ _ Ea Eb _ _ _ _ _. cbn [ty_none_of_impl].
      rewrite pivot_nz by assumption. rewrite Ea. cbn [bind]. now rewrite Eb.
    - intros x. cbn. now rewrite orb_false_r.
    - intros l1 l2 a' b' -> ->. now rewrite existsb_app, negb_orb.
  Qed.

  Lemma ty_none_of_lemma (l : list A) d : deep l d -> ty_none_of l p d = Ok (negb (existsb p l)).
  Proof.
    intros Hd. unfold ty_none_of. destruct l as [|a t] eqn:El; [reflexivity|]. rewrite <- El in *.
    rewrite nonempty by now rewrite El.
    destruct (deep_start l d Hd) as (k&H1&H2).
    destruct (ty_none_walk l k d 0 (length l)) as (b&E&R); try lia.
    { rewrite El. cbn [length]. lia. }
    rewrite Nat.sub_0_r in E. rewrite slice_full in R. now rewrite E, R.
  Qed.

  Lemma existsb_howmany (l : list A) : negb (existsb p l) = (howmany p l =? 0).
  Proof. induction l as [|x t IH]; [reflexivity|]. cbn [existsb howmany]. destruct (p x); [reflexivity|exact IH]. Qed.

  Definition one_comb (a : bool * nat) (b : bool * nat) : bool * nat :=
    ((if fst a then snd b =? 0 else fst b), snd a + snd b).

  (** one_of says whether exactly one matches as long as no more than two do. *)
  Lemma ty_one_of_lemma (l : list A) d : l <> [] -> deep l d -> howmany p l <= 2 ->
    ty_one_of l p d = Ok (howmany p l =? 1).
  Proof.
    intros Hl Hd Hc. unfold ty_one_of. rewrite nonempty by assumption.
    destruct (walk_all l (fun s c => snd c = howmany p s /\ (howmany p s <= 2 -> fst c = (howmany p s =? 1)))
      (fun d first last pivot => b <- ty_one_of_impl l p d first last pivot ;;
         Ok (b, howmany p (slice l first last)))
      (fun x => (p x, if p x then 1 else 0)) one_comb) with (d := d) as (b&E&R1&R2).
    - intros d' f la x -> Hx. cbn [ty_one_of_impl Nat.eqb]. rewrite (rd_some _ _ _ Hx). cbn [bind].
      rewrite (slice_one l f x Hx). cbn [howmany]. now rewrite Nat.add_0_r.
    - intros d' f la pv a' b' Hn Hp Hlt Ea Eb [Ra _] [Rb _] Hm Hlen (k&Hk1&Hk2). cbn [ty_one_of_impl].
      rewrite pivot_nz by assumption.
      destruct (ty_one_of_impl l p d' f (f + pv) (pv / 2)) as [ba| |]; cbn [bind] in Ea; try discriminate.
      destruct (ty_one_of_impl l p d' (f + pv) la ((la - f - pv) / 2)) as [bb| |]; cbn [bind] in Eb;
        try discriminate.
      injection Ea as <-. injection Eb as <-. cbn [bind].
      destruct (half_facts k (la - f)) as (F1&F2&F3&F4); [lia|assumption|]. rewrite <- Hp in *.
      destruct (ty_none_walk l k d' (f + pv) la) as (bn&En&Rn); try lia.
      replace (la - (f + pv)) with (la - f - pv) in En by lia. rewrite En. cbn [bind].
      unfold one_comb. cbn [fst snd]. rewrite Rn, existsb_howmany.
      rewrite (slice_app l f (f + pv) la) by lia. now rewrite howmany_app.
    - intros x. cbn [howmany snd fst]. split; [lia|]. intros _. now destruct (p x).
    - intros l1 l2 a' b' [Ra Ra'] [Rb Rb']. unfold one_comb. cbn [fst snd]. rewrite howmany_app, Ra, Rb.
      split; [reflexivity|]. intros H. rewrite Ra', Rb' by lia.
      destruct (Nat.eqb_spec (howmany p l1) 1) as [E1|E1].
      + rewrite E1. now destruct (howmany p l2) as [|[|?]].
      + destruct (Nat.eqb_spec (howmany p l2) 1), (Nat.eqb_spec (howmany p l1 + howmany p l2) 1); lia.
    - assumption.
    - assumption.
    - destruct (ty_one_of_impl l p d 0 (length l) (length l / 2)) as [bb| |]; cbn [bind] in E; try discriminate.
      injection E as <-. cbn [fst] in R2. now rewrite R2.
  Qed.

  (** count_if *)
  Lemma ty_count_if_lemma (l : list A) d : deep l d -> ty_count_if l p d = Ok (howmany p l).
  Proof.
    intros Hd. unfold ty_count_if. destruct l as [|a t] eqn:El; [reflexivity|]. rewrite <- El in *.
    rewrite nonempty by now rewrite El.
    destruct (walk_all l (fun s n => n = howmany p s)
      (fun d first last pivot => ty_count_if_impl l p d first (last - first))
      (fun x => if p x then 1 else 0) Nat.add) with (d := d) as (b&E&R).
    - intros d' f la x -> Hx. replace (f + 1 - f) with 1 by lia. cbn [ty_count_if_impl Nat.eqb].
      now rewrite (rd_some _ _ _ Hx).
    - intros d' f la pv a' b' Hn Hp Hlt Ea Eb _ _ Hm _ _. cbn [ty_count_if_impl].
      replace (la - f =? 1) with false by (symmetry; apply Nat.eqb_neq; lia). rewrite <- Hp.
      replace (f + pv - f) with pv in Ea by lia. replace (la - f - pv) with (la - (f + pv)) by lia.
      rewrite Ea. cbn [bind]. now rewrite Eb.
    - intros x. cbn [howmany]. lia.
    - intros l1 l2 a' b' -> ->. now rewrite howmany_app.
    - now rewrite El.
    - assumption.
    - rewrite Nat.sub_0_r in E. now rewrite E, R.
  Qed.
End Bool.

Section Find.
  Context {A : Type}.
  Variables (l : list A) (p : A -> bool).

  Definition found_in (first last k : nat) : Prop :=
    first <= k <= last /\ (forall i x, first <= i < k -> nth_error l i = Some x -> p x = false)
    /\ (k < last -> exists x, nth_error l k = Some x /\ p x = true).

  Lemma find_walk : forall k d first last, first < last -> last <= length l -> last - first <= 2 ^ k -> k < d ->
    exists r, ty_find_index_if_impl l p d first last ((last - first) / 2) first = Ok r /\ found_in first last r.
  Proof.
    assert (Leaf : forall d first x, nth_error l first = Some x ->
      exists r, ty_find_index_if_impl l p (S d) first (first + 1) (1 / 2) first = Ok r
        /\ found_in first (first + 1) r).
    { intros d first x Hx. cbn [ty_find_index_if_impl]. rewrite Nat.eqb_refl. cbn [negb].
      change (1 / 2 =? 0) with true. cbn [negb]. rewrite (rd_some _ _ _ Hx). cbn [bind].
      destruct (p x) eqn:Ep; eexists; (split; [reflexivity|]); repeat split; try lia.
      - intros _. now exists x.
      - intros i y Hi Hy. assert (i = first) by lia. subst. congruence. }
    induction k as [|k IH]; intros d first last H1 H2 H3 H4; (destruct d as [|d]; [lia|]).
    - cbn [Nat.pow] in H3. assert (last = first + 1) by lia. subst last.
      destruct (nth_error l first) as [x|] eqn:E; [|apply nth_error_None in E; lia].
      replace (first + 1 - first) with 1 by lia. now apply (Leaf d first x).
    - destruct (Nat.eq_dec (last - first) 1) as [E1|E1].
      { assert (last = first + 1) by lia. subst last.
        destruct (nth_error l first) as [x|] eqn:E; [|apply nth_error_None in E; lia].
        rewrite E1. now apply (Leaf d first x). }
      destruct (half_facts k (last - first) ltac:(lia) H3) as (F1&F2&F3&F4).
      remember ((last - first) / 2) as pv eqn:Epv.
      destruct (IH d first (first + pv) ltac:(lia) ltac:(lia) ltac:(lia) ltac:(lia)) as (a&Ea&(Ra1&Ra2&Ra3)).
      replace (first + pv - first) with pv in Ea by lia.
      cbn [ty_find_index_if_impl]. rewrite Nat.eqb_refl. cbn [negb]. rewrite pivot_nz by lia.
      rewrite Ea. cbn [bind].
      destruct (Nat.eq_dec a (first + pv)) as [->|Hne].
      + destruct (IH d (first + pv) last ltac:(lia) ltac:(lia) ltac:(lia) ltac:(lia)) as (b&Eb&(Rb1&Rb2&Rb3)).
        replace (last - first - pv) with (last - (first + pv)) by lia.
        exists b. split; [exact Eb|]. split; [lia|]. split; [|exact Rb3].
        intros i x Hi Hx. destruct (Nat.lt_ge_cases i (first + pv)).
        * apply (Ra2 i x); [lia|assumption].
        * apply (Rb2 i x); [lia|assumption].
      + exists a. destruct d as [|d]; [lia|]. cbn [ty_find_index_if_impl].
        replace (a =? first + pv) with false by (symmetry; apply Nat.eqb_neq; lia). cbn [negb].
        split; [reflexivity|]. split; [lia|]. split; [exact Ra2|]. intros _. apply Ra3. lia.
  Qed.

  Lemma ty_find_index_if_lemma d : deep l d ->
    exists k, ty_find_index_if l p d = Ok k /\ first_with p l k /\ ty_is_found l k = existsb p l.
  Proof.
    intros (k&H1&H2). unfold ty_find_index_if.
    assert (G : forall r, found_in 0 (length l) r -> first_with p l r /\ ty_is_found l r = existsb p l).
    { intros r (R1&R2&R3). assert (F : first_with p l r).
      { split; [lia|]. split.
        - intros i x Hi. apply R2. lia.
        - intros x Hx. destruct (R3) as (y&Hy&Hp); [apply nth_error_Some; congruence|]. congruence. }
      split; [exact F|]. unfold ty_is_found. destruct (Nat.eqb_spec r (length l)) as [->|Hne]; cbn [negb].
      - symmetry. apply not_true_iff_false. intros H. apply existsb_exists in H. destruct H as (x&Hin&Hx).
        apply In_nth_error in Hin. destruct Hin as [i Hi].
        assert (i < length l) by (apply nth_error_Some; congruence).
        rewrite (R2 i x) in Hx; [discriminate|lia|assumption].
      - symmetry. apply existsb_exists. destruct (R3 ltac:(lia)) as (x&Hx&Hp). exists x. split; [|exact Hp].
        now apply nth_error_In in Hx. }
    destruct (Nat.eqb_spec (length l) 0) as [E|E].
    - exists 0. split; [reflexivity|]. apply G. split; [lia|]. split; intros; lia.
    - destruct (find_walk k d 0 (length l)) as (r&Er&Rr); try lia.
      rewrite Nat.sub_0_r in Er. exists r. split; [exact Er|]. now apply G.
  Qed.
End Find.

Section Fold.
  Context {A : Type}.
  Variable l : list A.

  Lemma fold_walk {B} (op : B -> A -> B) : forall k d t first last, first < last -> last <= length l ->
    last - first <= 2 ^ k -> k < d ->
    ty_fold_impl l op d t first last ((last - first) / 2) = Ok (fold_left op (slice l first last) t).
  Proof.
    assert (Leaf : forall d t first x, nth_error l first = Some x ->
      ty_fold_impl l op (S d) t first (first + 1) (1 / 2) = Ok (fold_left op (slice l first (first + 1)) t)).
    { intros d t first x Hx. cbn [ty_fold_impl]. change (1 / 2 =? 0) with true. cbv iota.
      rewrite (rd_some _ _ _ Hx), (slice_one l first x Hx). reflexivity. }
    induction k as [|k IH]; intros d t first last H1 H2 H3 H4; (destruct d as [|d]; [lia|]).
    - cbn [Nat.pow] in H3. assert (last = first + 1) by lia. subst last.
      destruct (nth_error l first) as [x|] eqn:E; [|apply nth_error_None in E; lia].
      replace (first + 1 - first) with 1 by lia. now apply (Leaf d t first x).
    - destruct (Nat.eq_dec (last - first) 1) as [E1|E1].
      { assert (last = first + 1) by lia. subst last.
        destruct (nth_error l first) as [x|] eqn:E; [|apply nth_error_None in E; lia].
        rewrite E1. now apply (Leaf d t first x). }
      destruct (half_facts k (last - first) ltac:(lia) H3) as (F1&F2&F3&F4).
      remember ((last - first) / 2) as pv eqn:Epv. cbn [ty_fold_impl]. rewrite pivot_nz by lia.
      replace (pv / 2) with ((first + pv - first) / 2) by (f_equal; lia).
      rewrite IH by lia. cbn [bind].
      replace (last - first - pv) with (last - (first + pv)) by lia. rewrite IH by lia.
      rewrite (slice_app l first (first + pv) last) by lia. now rewrite fold_left_app.
  Qed.

  Lemma ty_fold_lemma {B} (op : B -> A -> B) d t : deep l d -> ty_fold l op d t = Ok (fold_left op l t).
  Proof.
    intros (k&H1&H2). unfold ty_fold. destruct (Nat.eqb_spec (length l) 0) as [E|E].
    - destruct l; [reflexivity|discriminate].
    - replace (length l / 2) with ((length l - 0) / 2) by (f_equal; lia).
      rewrite (fold_walk op k) by lia. now rewrite slice_full.
  Qed.

  Lemma ty_partial_sum_go (op : A -> A -> A) : forall n i t acc, i + n = length l ->
    ty_partial_sum_impl l op n i t acc = Ok (acc ++ t :: prefix_folds op t (skipn i l)).
  Proof.
    induction n as [|n IH]; intros i t acc H; cbn [ty_partial_sum_impl].
    - rewrite skipn_all2 by lia. reflexivity.
    - destruct (nth_error l i) as [x|] eqn:E; [|apply nth_error_None in E; lia].
      rewrite (rd_some _ _ _ E). cbn [bind]. rewrite IH by lia. rewrite <- app_assoc. cbn [app].
      rewrite Nat.add_1_r.
      assert (Hs : skipn i l = x :: skipn (S i) l).
      { clear -E. revert i E. induction l as [|y s IHs]; intros [|i] E; try discriminate.
        - injection E as ->. reflexivity.
        - cbn [skipn]. now apply IHs. }
      rewrite Hs. reflexivity.
  Qed.

  Lemma ty_partial_sum_lemma (op : A -> A -> A) : ty_partial_sum l op = Ok (inclusive op l).
  Proof.
    unfold ty_partial_sum. destruct l as [|x t] eqn:E; [reflexivity|]. cbn [length Nat.eqb rd nth_error bind].
    rewrite <- E. rewrite ty_partial_sum_go by (rewrite E; cbn [length]; lia). rewrite E. reflexivity.
  Qed.
End Fold.

Lemma ty_transform2_lemma {A B C} (op : A -> B -> C) (l1 : list A) (l2 : list B) :
  length l1 <= length l2 ->
  ty_transform2 l1 l2 op = Ok (map (fun xy => op (fst xy) (snd xy)) (combine l1 l2)).
Proof.
  intros H. unfold ty_transform2.
  assert (G : forall n i, i + n = length l1 ->
    expand (fun i => x <- rd l1 i ;; y <- rd l2 i ;; Ok (op x y)) i n
    = Ok (map (fun xy => op (fst xy) (snd xy)) (skipn i (combine l1 l2)))).
  { induction n as [|n IH]; intros i Hi; cbn [expand].
    - rewrite skipn_all2; [reflexivity|]. rewrite combine_length. lia.
    - destruct (nth_error l1 i) as [x|] eqn:E1; [|apply nth_error_None in E1; lia].
      destruct (nth_error l2 i) as [y|] eqn:E2; [|apply nth_error_None in E2; lia].
      rewrite (rd_some _ _ _ E1), (rd_some _ _ _ E2). cbn [bind]. rewrite IH by lia. cbn [bind].
      assert (Hs : skipn i (combine l1 l2) = (x, y) :: skipn (S i) (combine l1 l2)).
      { clear -E1 E2. revert l2 i E1 E2. induction l1 as [|a s IHs]; intros [|b s2] [|i] E1 E2; try discriminate.
        - injection E1 as ->. injection E2 as ->. reflexivity.
        - cbn [combine skipn]. now apply IHs. }
      rewrite Hs. reflexivity. }
  now rewrite (G (length l1) 0).
Qed.

Lemma ty_transform2_short {A B C} (op : A -> B -> C) (l1 : list A) (l2 : list B) :
  length l2 < length l1 -> ty_transform2 l1 l2 op = UB.
Proof.
  intros H. unfold ty_transform2.
  assert (G : forall n i, i + n = length l1 -> i <= length l2 ->
    expand (fun i => x <- rd l1 i ;; y <- rd l2 i ;; Ok (op x y)) i n = UB).
  { induction n as [|n IH]; intros i Hi Hj; [lia|]. cbn [expand].
    destruct (nth_error l1 i) as [x|] eqn:E1; [|apply nth_error_None in E1; lia].
    rewrite (rd_some _ _ _ E1). cbn [bind]. unfold rd at 1. destruct (nth_error l2 i) as [y|] eqn:E2; [|reflexivity].
    cbn [bind]. rewrite IH; [reflexivity|lia|]. assert (i < length l2) by (apply nth_error_Some; congruence). lia. }
  apply (G (length l1) 0); lia.
Qed.

Section Bound.
  Context {A B : Type}.
  Variables (l : list A) (v : B).

  Lemma lower_walk (comp : A -> B -> bool) j : forall k d first last,
    splits (sat (fun x => comp x v) l) first last j -> last <= length l -> last - first <= 2 ^ k -> k < d ->
    ty_lower_bound_impl l comp v d first last = Ok j.
  Proof.
    induction k as [|k IH]; intros d first last Hs H2 H3 H4; (destruct d as [|d]; [lia|]);
      cbn [ty_lower_bound_impl]; destruct Hs as (Hj&Hb&Ha);
      (destruct (Nat.eqb_spec (last - first) 0) as [E0|E0]; [f_equal; lia|]).
    all: try (cbn [Nat.pow] in H3; lia).
    all: destruct (Nat.eqb_spec (last - first) 1) as [E1|E1].
    1,3: (destruct (nth_error l first) as [x|] eqn:E; [|apply nth_error_None in E; lia];
      rewrite (rd_some _ _ _ E); cbn [bind]; f_equal; destruct (comp x v) eqn:Ec;
      [destruct (Nat.eq_dec j first) as [->|]; [|lia]; exfalso; apply (Ha first); [lia|now exists x]
      |destruct (Nat.eq_dec j first) as [->|]; [reflexivity|];
       destruct (Hb first) as (y&Hy&Hc); [lia|congruence]]).
    - cbn [Nat.pow] in H3; lia.
    - destruct (half_facts k (last - first) ltac:(lia) H3) as (F1&F2&F3&F4).
      remember ((last - first) / 2) as pv eqn:Epv.
      destruct (nth_error l (first + pv)) as [x|] eqn:E; [|apply nth_error_None in E; lia].
      rewrite (rd_some _ _ _ E). cbn [bind]. destruct (comp x v) eqn:Ec.
      + apply IH; try lia. assert (first + pv < j).
        { destruct (Nat.lt_ge_cases (first + pv) j); [assumption|]. exfalso. apply (Ha (first + pv)); [lia|now exists x]. }
        split; [lia|]. split; intros i Hi; [apply Hb|apply Ha]; lia.
      + apply IH; try lia. assert (j <= first + pv).
        { destruct (Nat.lt_ge_cases (first + pv) j); [|assumption]. destruct (Hb (first + pv)) as (y&Hy&Hc); [lia|].
          congruence. }
        split; [lia|]. split; intros i Hi; [apply Hb|apply Ha]; lia.
  Qed.

  Lemma ty_lower_bound_lemma (comp : A -> B -> bool) d j : deep l d ->
    splits (sat (fun x => comp x v) l) 0 (length l) j -> ty_lower_bound l comp v d = Ok j.
  Proof. intros (k&H1&H2) Hs. unfold ty_lower_bound. apply (lower_walk comp j k); (assumption || lia). Qed.

  (** upper_bound with [comp v x] is lower_bound with its negation. *)
  Lemma upper_is_lower (comp : B -> A -> bool) : forall d first last,
    ty_upper_bound_impl l comp v d first last
    = ty_lower_bound_impl l (fun x v => negb (comp v x)) v d first last.
  Proof.
    induction d as [|d IH]; intros first last; [reflexivity|].
    cbn [ty_upper_bound_impl ty_lower_bound_impl]. rewrite !IH.
    destruct (last - first =? 0); [reflexivity|]. destruct (last - first =? 1); [reflexivity|].
    destruct (rd l (first + (last - first) / 2)) as [x| |]; cbn [bind]; try reflexivity.
  Qed.

  Lemma ty_upper_bound_lemma (comp : B -> A -> bool) d j : deep l d ->
    splits (sat (fun x => negb (comp v x)) l) 0 (length l) j -> ty_upper_bound l comp v d = Ok j.
  Proof.
    intros Hd Hs. unfold ty_upper_bound. rewrite upper_is_lower.
    exact (ty_lower_bound_lemma (fun x v => negb (comp v x)) d j Hd Hs).
  Qed.
End Bound.
