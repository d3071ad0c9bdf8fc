(** Proofs about the random sorts. *)
From Coq Require Import List Arith Bool ZArith Lia Permutation Sorted ZifyBool ZifyNat.
From Verif Require Import Base BaseProof SearchModel SearchSpec SearchProof OrderModel OrderSpec OrderProof2 ListFacts
  MutModel MutSpec MutProof MutProof2 MutProof3 MutProof4 FixModel FixSpec FixProof FixProof5 FixProof6 SmpModel SmpSpec SmpProof2.
Import ListNotations.

Section Sorts.
  Context {A G : Type}.
  Variable dist : G -> nat -> nat -> nat * G.
  Variable comp : A -> A -> bool.

  Definition outcome {R} (x : res R) (Q : R -> Prop) : Prop :=
    match x with Ok r => Q r | UB => False | Fuel => True end.

  Lemma outcome_iter {S R} (I : S -> Prop) (Q : R -> Prop) (body : S -> res (S + R)) :
    (forall s, I s -> exists x, body s = Ok x /\ match x with inl s' => I s' | inr r => Q r end) ->
    forall k s, I s -> outcome (iter k body s) Q.
  Proof.
    intros H. induction k as [|k IH]; intros s Hs; [exact Logic.I|]. rewrite iter_S.
    destruct (H s Hs) as (x & E & Hx). rewrite E. cbn [bind]. destruct x as [s'|r]; [now apply IH|exact Hx].
  Qed.

  Lemma bogo_sort_partial_lemma c d k (m : list A) first last g :
    in_interval dist -> valid m first last -> depth_bound (last - first) <= d -> last - first < d ->
    match bogo_sort dist comp c d k m first last g with
    | Ok (m', g') => rearranged m first last m' /\ sorted_range comp m' first last
    | UB => False
    | Fuel => True
    end.
  Proof.
    intros HD V Hd Hd'.
    cut (outcome (bogo_sort dist comp c d k m first last g)
      (fun r => rearranged m first last (fst r) /\ sorted_range comp (fst r) first last)).
    { unfold outcome. destruct (bogo_sort dist comp c d k m first last g) as [[m' g']| |]; auto. }
    unfold bogo_sort. apply (outcome_iter (fun s => rearranged m first last (fst s))).
    2:{ cbn [fst]. now apply rearranged_refl. }
    intros [m1 g1] H. cbn [fst] in H.
    assert (V1 : valid m1 first last) by (eapply rearranged_valid; eauto).
    destruct (is_sorted_correct_lemma comp c d m1 first last V1 Hd) as (b & E & Hb). rewrite E. cbn [bind].
    destruct b.
    - eexists. split; [reflexivity|]. cbn [fst]. split; [exact H|]. now apply Hb.
    - destruct (shuffle_correct_lemma dist g1 d m1 first last HD V1 Hd') as (m2 & g2 & E2 & H2). rewrite E2. cbn [bind].
      eexists. split; [reflexivity|]. cbn [fst]. eapply rearranged_trans; eauto.
  Qed.

  Lemma bogo_sort_sorted_lemma c d k (m : list A) first last g :
    valid m first last -> depth_bound (last - first) <= d -> 0 < k -> sorted_range comp m first last ->
    bogo_sort dist comp c d k m first last g = Ok (m, g).
  Proof.
    intros V Hd Hk H. destruct k as [|k]; [lia|]. unfold bogo_sort. rewrite iter_S.
    destruct (is_sorted_correct_lemma comp c d m first last V Hd) as (b & E & Hb). rewrite E. cbn [bind].
    apply Hb in H. subst b. reflexivity.
  Qed.

  Lemma bozo_sort_partial_lemma c d k (m : list A) first last g :
    (forall g, fst (dist g 0 (last - first)) < last - first) ->
    valid m first last -> depth_bound (last - first) <= d ->
    match bozo_sort dist comp c d k m first last g with
    | Ok (m', g') => rearranged m first last m' /\ sorted_range comp m' first last
    | UB => False
    | Fuel => True
    end.
  Proof.
    intros HD V Hd.
    cut (outcome (bozo_sort dist comp c d k m first last g)
      (fun r => rearranged m first last (fst r) /\ sorted_range comp (fst r) first last)).
    { unfold outcome. destruct (bozo_sort dist comp c d k m first last g) as [[m' g']| |]; auto. }
    unfold bozo_sort. apply (outcome_iter (fun s => rearranged m first last (fst s))).
    2:{ cbn [fst]. now apply rearranged_refl. }
    intros [m1 g1] H. cbn [fst] in H.
    assert (V1 : valid m1 first last) by (eapply rearranged_valid; eauto).
    destruct (is_sorted_correct_lemma comp c d m1 first last V1 Hd) as (b & E & Hb). rewrite E. cbn [bind].
    destruct b.
    - eexists. split; [reflexivity|]. cbn [fst]. split; [exact H|]. now apply Hb.
    - destruct (random_swap_partial_lemma dist g1 m1 first last HD V1) as (m2 & g2 & E2 & H2). rewrite E2. cbn [bind].
      eexists. split; [reflexivity|]. cbn [fst]. eapply rearranged_trans; eauto.
  Qed.

  (** ** The fixed versions *)
  Section Dbl.
    Context {S : Type}.
    Variables (b : S -> bool) (step : S -> res S) (P : S -> Prop).
    Hypothesis HS : forall s, P s -> b s = false -> exists s', step s = Ok s' /\ P s'.

    Lemma dbl_1_outcome : forall d s n, P s -> outcome (dbl_1 (stop b) step d s n) P.
    Proof.
      induction d as [|d IH]; intros s n H; [exact I|]. cbn [dbl_1]. unfold stop at 1. cbn [bind].
      destruct (b s) eqn:E; [exact H|]. destruct (n =? 1).
      - destruct (HS s H E) as (s' & Es & Hs'). rewrite Es. exact Hs'.
      - specialize (IH s (n / 2) H) as H1. destruct (dbl_1 (stop b) step d s (n / 2)) as [s1| |]; cbn [bind outcome] in *; auto.
    Qed.

    Lemma dbl_outcome : forall d s n, P s -> outcome (dbl (stop b) step d s n) (fun s => P s /\ b s = true).
    Proof.
      induction d as [|d IH]; intros s n H; [exact I|]. cbn [dbl]. unfold stop at 1. cbn [bind].
      destruct (b s) eqn:E; [split; auto|].
      pose proof (dbl_1_outcome d s n H) as H1. destruct (dbl_1 (stop b) step d s n) as [s1| |]; cbn [bind outcome] in *; auto.
    Qed.
  End Dbl.

  Lemma cont_sorted_ok e (x : cont A) : wf x -> depth_bound (csize x) <= e ->
    exists b, cont_sorted comp e x = Ok b /\ (b = true <-> sorted_range comp (cbase x) (coff x) (coff x + csize x)).
  Proof.
    intros W He. unfold cont_sorted. apply is_sorted_correct_lemma; [split; [lia|exact W]|].
    replace (coff x + csize x - coff x) with (csize x) by lia. exact He.
  Qed.

  Lemma reordered_wf (x y : cont A) : wf x -> reordered x y -> wf y.
  Proof.
    intros W (E1 & E2 & R). unfold wf in *. rewrite E1, E2.
    assert (V : valid (cbase x) (coff x) (coff x + csize x)) by (split; [lia|exact W]).
    exact (proj2 (rearranged_valid _ _ _ _ _ _ V R V)).
  Qed.

  Lemma reordered_refl (x : cont A) : wf x -> reordered x x.
  Proof. intros W. repeat split. apply rearranged_refl. split; [lia|exact W]. Qed.

  Lemma reordered_trans (x y z : cont A) : wf x -> reordered x y -> reordered y z -> reordered x z.
  Proof.
    intros W (E1 & E2 & R) (E3 & E4 & R'). repeat split; [congruence|congruence|].
    rewrite E1, E2 in R'. eapply rearranged_trans; [|exact R|exact R']. split; [lia|exact W].
  Qed.

  Lemma reordered_front (x : cont A) out : Permutation (elems x) out -> wf x -> reordered x (with_front x out).
  Proof.
    intros H W. assert (L : length out = csize x).
    { rewrite <- (Permutation_length H). unfold elems. rewrite slice_length by exact W. lia. }
    unfold with_front. repeat split. cbn [cbase]. exists out. rewrite firstn_all2 by lia. split; [exact H|reflexivity].
  Qed.

  Lemma fx_sort_result (turn : cont A -> G -> res (cont A * G)) d e (x : cont A) g :
    (forall y g, wf y -> csize y = csize x -> exists y' g', turn y g = Ok (y', g') /\ reordered y y') ->
    wf x -> depth_bound (csize x) <= e ->
    match
      (b <- cont_sorted comp e x ;;
       if b then Ok (x, g)
       else
        r <- turn x g ;;
        s <- dbl (stop (fun s : cont A * G * bool => snd s))
               (fun s => b <- cont_sorted comp e (fst (fst s)) ;;
                  if b then Ok (fst s, true)
                  else r <- turn (fst (fst s)) (snd (fst s)) ;; Ok (r, false))
               d (r, false) 1 ;;
        Ok (fst s))
    with
    | Ok (y, g') => reordered x y /\ sorted_range comp (cbase y) (coff y) (coff y + csize y)
    | UB => False
    | Fuel => True
    end.
  Proof.
    intros HT W He. destruct (cont_sorted_ok e x W He) as (b & E & Hb). rewrite E. cbn [bind]. destruct b.
    - split; [now apply reordered_refl|]. now apply Hb.
    - destruct (HT x g W eq_refl) as (y & g1 & Et & R). rewrite Et. cbn [bind].
      match goal with |- context [dbl (stop ?b0) ?st0 d ?s0 1] => set (bb := b0); set (st := st0); set (ss := s0) end.
      set (P := fun s : cont A * G * bool => reordered x (fst (fst s)) /\
          (snd s = true -> sorted_range comp (cbase (fst (fst s))) (coff (fst (fst s))) (coff (fst (fst s)) + csize (fst (fst s))))).
      assert (D : outcome (dbl (stop bb) st d ss 1) (fun s => P s /\ bb s = true)).
      { apply dbl_outcome.
        - intros [[y1 g2] b1] (R1 & _) _. unfold st. cbn [fst snd] in *.
          assert (W1 : wf y1) by (eapply reordered_wf; eauto). assert (C1 : csize y1 = csize x) by apply R1.
          destruct (cont_sorted_ok e y1 W1) as (b' & E' & Hb'); [rewrite C1; exact He|]. rewrite E'. cbn [bind]. destruct b'.
          + eexists. split; [reflexivity|]. split; cbn [fst snd]; [exact R1|]. intros _. now apply Hb'.
          + destruct (HT y1 g2 W1 C1) as (y3 & g3 & E3 & R3). rewrite E3. cbn [bind].
            eexists. split; [reflexivity|]. split; cbn [fst snd]; [eapply reordered_trans; eauto|discriminate].
        - split; cbn [fst snd]; [exact R|discriminate]. }
      destruct (dbl (stop bb) st d ss 1) as [[[y2 g2] b2]| |]; cbn [bind outcome fst snd] in *; auto.
      destruct D as ((D1 & D2) & D3). cbn [fst snd] in *. auto.
  Qed.

  Lemma fx_bogo_sort_partial_lemma d e (x : cont A) g :
    in_interval dist -> wf x -> depth_bound (csize x) <= e -> csize x <= e ->
    match fx_bogo_sort_result dist comp d e x g with
    | Ok (y, g') => reordered x y /\ sorted_range comp (cbase y) (coff y) (coff y + csize y)
    | UB => False
    | Fuel => True
    end.
  Proof.
    intros HD W He He'. apply (fx_sort_result (fun y g => fx_shuffle_result dist e y g)); auto.
    intros y g0 Wy Cy. destruct (fx_shuffle_partial_lemma dist HD e y g0 Wy ltac:(lia)) as (H0 & H1).
    destruct (Nat.le_gt_cases (csize y) 1) as [C|C].
    - exists y, g0. split; [now apply H0|now apply reordered_refl].
    - destruct (draws (fun g : G => dist g 0 (csize y - 1)) (csize y) g0) as [rs g'] eqn:Ed.
      destruct (H1 C rs g' eq_refl) as (out & E & _ & P). exists (with_front y out), g'. split; [exact E|].
      now apply reordered_front.
  Qed.

  Lemma fx_bozo_sort_partial_lemma d e (x : cont A) g :
    in_interval dist -> wf x -> depth_bound (csize x) <= e ->
    match fx_bozo_sort_result dist comp d e x g with
    | Ok (y, g') => reordered x y /\ sorted_range comp (cbase y) (coff y) (coff y + csize y)
    | UB => False
    | Fuel => True
    end.
  Proof.
    intros HD W He. apply (fx_sort_result (fun y g => fx_random_swap_result dist y g)); auto.
    intros y g0 Wy Cy. destruct (fx_random_swap_correct_lemma dist HD y g0 Wy) as (H0 & H1).
    destruct (Nat.le_gt_cases (csize y) 1) as [C|C].
    - exists y, g0. split; [now apply H0|now apply reordered_refl].
    - destruct (dist g0 0 (csize y - 1)) as [i g1] eqn:E1. destruct (dist g1 0 (csize y - 1)) as [j g2] eqn:E2.
      destruct (H1 C i g1 j g2 eq_refl E2) as (out & E & _ & P). exists (with_front y out), g2. split; [exact E|].
      now apply reordered_front.
  Qed.

  Lemma fx_sorts_sorted_lemma d e (x : cont A) g :
    wf x -> depth_bound (csize x) <= e -> sorted_range comp (cbase x) (coff x) (coff x + csize x) ->
    fx_bogo_sort_result dist comp d e x g = Ok (x, g) /\ fx_bozo_sort_result dist comp d e x g = Ok (x, g).
  Proof.
    intros W He H. destruct (cont_sorted_ok e x W He) as (b & E & Hb). apply Hb in H. subst b.
    unfold fx_bogo_sort_result, fx_bozo_sort_result. rewrite E. auto.
  Qed.
End Sorts.

(** ** Every order can be drawn *)
Section Reach.
  Context {A : Type}.

  Lemma shuffle_reach_loop : forall n k (m : list A) first last xs, last - first = n -> 0 < n ->
    valid m first last -> Permutation (slice m first last) xs -> n <= k ->
    exists script, forall rest,
    iter k (fun '((m, first, d, g) : list A * nat * nat * list nat) =>
        if first <? last - 1 then
          let '(i, g) := scripted g 0 d in
          if negb (i =? 0) then
            m <- iter_swap m first (first + i) ;; Ok (inl (m, S first, d - 1, g))
          else Ok (inl (m, S first, d - 1, g))
        else Ok (inr (m, g)))
        (m, first, n - 1, script ++ rest) = Ok (paste m first xs, rest).
  Proof.
    induction n as [|n IH]; intros k m first last xs Hn Hp [V1 V2] P Hk; [lia|]. destruct k as [|k]; [lia|].
    assert (Lx : length xs = S n). { rewrite <- (Permutation_length P), slice_length; lia. }
    destruct xs as [|x xs]; [discriminate|]. cbn [length] in Lx.
    destruct (Nat.eq_dec n 0) as [->|Nn].
    - exists []. intros rest. rewrite iter_S. destruct (Nat.ltb_spec first (last - 1)); [lia|]. cbn [bind app].
      assert (xs = []) as -> by (destruct xs; [reflexivity|cbn in Lx; lia]). f_equal. f_equal.
      destruct (nth_error_ex m first ltac:(lia)) as [y Hy].
      rewrite (slice_cons m first last y), slice_nil in P by (auto; lia). apply Permutation_length_1 in P. subst y.
      symmetry. rewrite <- (paste_slice m first (S first)) at 2 by (split; lia). f_equal.
      rewrite (slice_cons m first (S first) x), slice_nil by (auto; lia). reflexivity.
    - assert (I : In x (slice m first last)) by (apply (Permutation_in x (Permutation_sym P)); now left).
      apply In_nth_error in I. destruct I as [i Hi].
      assert (Hi' : i < S n). { apply nth_error_lt in Hi. rewrite slice_length in Hi; lia. }
      rewrite nth_error_slice in Hi by lia.
      assert (X : exists m1, (if negb (i =? 0) then iter_swap m first (first + i) else Ok m) = Ok m1 /\
        rearranged m first last m1 /\ nth_error m1 first = Some x).
      { destruct (Nat.eqb_spec i 0) as [->|Ni]; cbn [negb].
        - exists m. rewrite Nat.add_0_r in Hi. split; [reflexivity|]. split; [apply rearranged_refl; split; lia|exact Hi].
        - destruct (swap_ok m first (first + i)) as (m1 & E); [lia|lia|]. exists m1. split; [exact E|].
          split; [eapply swap_rearranged; [split; lia| | |exact E]; lia|].
          apply swap_facts in E. rewrite <- Hi. apply E. }
      destruct X as (m1 & E1 & R1 & F1).
      assert (V' : valid m1 first last) by (eapply rearranged_valid; eauto; split; lia).
      assert (P1 : Permutation (slice m1 (S first) last) xs).
      { apply (Permutation_cons_inv (a := x)). rewrite <- (slice_cons m1 first last x) by (auto; lia).
        rewrite <- P. symmetry. destruct R1 as (ys & Py & ->).
        assert (Ly : length ys = last - first) by (rewrite <- (Permutation_length Py), slice_length; lia).
        replace last with (first + length ys) at 2 by lia. rewrite slice_paste by lia. exact Py. }
      destruct (IH k m1 (S first) last xs) as (script & Hs); try lia; [split; [lia|apply V']|exact P1|].
      exists (i :: script). intros rest. rewrite iter_S. destruct (Nat.ltb_spec first (last - 1)); [|lia].
      cbn [app]. rewrite scripted_cons by lia.
      specialize (Hs rest). replace (S n - 1 - 1) with (n - 1) by lia.
      assert (EM : paste m1 (S first) xs = paste m first (x :: xs)).
      { destruct R1 as (ys & Py & ->).
        assert (Ly : length ys = last - first) by (rewrite <- (Permutation_length Py), slice_length; lia).
        destruct ys as [|y ys]; [cbn in Ly; lia|]. cbn [length] in Ly.
        rewrite nth_paste_in in F1 by (cbn [length]; lia). rewrite Nat.sub_diag in F1. cbn in F1. inversion F1; subst y.
        change (x :: ys) with ([x] ++ ys). change (x :: xs) with ([x] ++ xs).
        rewrite <- !paste_app by (cbn [length]; lia). cbn [length].
        replace (first + 1) with (S first) by lia. apply paste_paste; [lia|]. rewrite paste_length by (cbn; lia). lia. }
      rewrite EM in Hs.
      destruct (Nat.eqb_spec i 0) as [->|Ni]; cbn [negb] in *.
      + inversion E1; subst m1. cbn [bind]. exact Hs.
      + rewrite E1. cbn [bind]. exact Hs.
  Qed.

  Lemma shuffle_reach k (m : list A) first last m' : valid m first last -> last - first < k -> rearranged m first last m' ->
    exists script, forall rest, shuffle scripted k m first last (script ++ rest) = Ok (m', rest).
  Proof.
    intros V Hk (xs & P & ->). pose proof V as [V1 V2]. unfold shuffle.
    destruct (Nat.ltb_spec 1 (last - first)) as [C|C].
    - destruct (shuffle_reach_loop (last - first) k m first last xs eq_refl ltac:(lia) V P ltac:(lia)) as (script & H).
      exists script. intros rest. unfold dec. destruct last as [|l]; [lia|]. cbn [bind]. rewrite Nat.sub_succ, Nat.sub_0_r in *.
      cbn [Nat.sub] in *. apply H.
    - exists []. intros rest. cbn [app]. f_equal. f_equal.
      assert (Ls : length (slice m first last) <= 1) by (rewrite slice_length; lia).
      assert (E : slice m first last = xs).
      { destruct (slice m first last) as [|a [|b l]] eqn:Es; [|now apply Permutation_length_1_inv in P|cbn in Ls; lia].
        now apply Permutation_nil in P. }
      rewrite <- E. symmetry. now apply paste_slice.
  Qed.

  Lemma bogo_sort_reaches_lemma (comp : A -> A -> bool) c d k (m : list A) first last m' :
    valid m first last -> depth_bound (last - first) <= d -> last - first < d -> 1 < k ->
    rearranged m first last m' -> sorted_range comp m' first last -> ~ sorted_range comp m first last ->
    exists script, bogo_sort scripted comp c d k m first last script = Ok (m', []).
  Proof.
    intros V Hd Hd' Hk R S' NS. destruct (shuffle_reach d m first last m' V Hd' R) as (script & H).
    exists script. specialize (H []). rewrite app_nil_r in H. unfold bogo_sort.
    destruct k as [|[|k]]; [lia|lia|]. rewrite iter_S.
    destruct (is_sorted_correct_lemma comp c d m first last V Hd) as (b & E & Hb). rewrite E. cbn [bind].
    destruct b; [exfalso; apply NS; now apply Hb|]. rewrite H. cbn [bind]. rewrite iter_S.
    assert (V' : valid m' first last) by (eapply rearranged_valid; eauto).
    destruct (is_sorted_correct_lemma comp c d m' first last V' Hd) as (b & E' & Hb'). rewrite E'. cbn [bind].
    apply Hb' in S'. subst b. reflexivity.
  Qed.
End Reach.

(** ** What goes wrong *)
Lemma bogo_sort_refuted_lemma : forall k,
  in_interval (fun (g : unit) lo hi => (lo, g)) /\
  bogo_sort (fun (g : unit) lo hi => (lo, g)) Nat.ltb true 8 k [2; 1] 0 2 tt = Fuel.
Proof.
  intros k. split; [intros g a b H; cbn; lia|]. unfold bogo_sort. induction k as [|k IH]; [reflexivity|]. rewrite iter_S.
  exact IH.
Qed.

Lemma bozo_sort_refuted_lemma : forall k, 0 < k ->
  in_interval scripted /\ bozo_sort scripted Nat.ltb true 8 k [2; 1] 0 2 [2; 0] = UB.
Proof. intros [|k] H; [lia|]. split; [exact scripted_in|]. reflexivity. Qed.
