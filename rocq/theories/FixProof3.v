(** Fixed containers: heaps, partial_sort and nth_element. *)
From Coq Require Import ZArith List Arith Bool Lia Permutation ZifyBool ZifyNat.
From Verif Require Import Base BaseProof SearchModel SearchSpec SearchProof OrderSpec OrderModel OrderProof ListFacts
  MutModel MutSpec MutProof MutProof2 MutProof3 ValFacts HeapProof SortProof SortProof3.
From Verif Require Import FixModel FixSpec FixProof FixProof2.
Import ListNotations.
Ltac Zify.zify_post_hook ::= Z.div_mod_to_equations.

Lemma log2_twice n : 2 * Nat.log2 n <= n.
Proof.
  destruct (Nat.eq_dec n 0) as [->|N]; [cbn; lia|].
  pose proof (Nat.log2_spec n ltac:(lia)) as [H _]. remember (Nat.log2 n) as k eqn:E. clear E.
  enough (2 * k <= 2 ^ k) by lia. clear. induction k as [|k IH]; [cbn; lia|].
  rewrite Nat.pow_succ_r by lia. destruct k as [|k]; [cbn; lia|]. lia.
Qed.

Section P.
  Context {A : Type}.
  Variable comp : A -> A -> bool.
  Hypothesis W : strict_weak_order comp.
  Variable d0 : A.
  Implicit Types (c : cont A).
  Notation v := (v d0).

  Definition g c : nat -> A := hv d0 (cbase c) (coff c).

  (** The same but for the elements at the first [len] positions, which are rearranged. *)
  Definition step (len : nat) c c' : Prop :=
    coff c' = coff c /\ csize c' = csize c /\ rearranged (cbase c) (coff c) (coff c + len) (cbase c').

  Lemma wf_valid c len : wf c -> len <= csize c -> valid (cbase c) (coff c) (coff c + len).
  Proof. unfold wf. intros H L. split; lia. Qed.

  Lemma step_refl len c : wf c -> len <= csize c -> step len c c.
  Proof. intros Wc L. repeat split. apply rearranged_refl. now apply wf_valid. Qed.

  Lemma step_wf len c c' : wf c -> len <= csize c -> step len c c' -> wf c'.
  Proof.
    intros Wc L (E1 & E2 & R). unfold wf. rewrite E1, E2.
    rewrite (rearranged_length _ _ _ _ (wf_valid c len Wc L) R). exact Wc.
  Qed.

  Lemma step_trans len c1 c2 c3 : wf c1 -> len <= csize c1 -> step len c1 c2 -> step len c2 c3 -> step len c1 c3.
  Proof.
    intros Wc L (E1 & E2 & R) (F1 & F2 & T). repeat split; [congruence..|].
    rewrite E1 in T. eapply rearranged_trans; [now apply wf_valid|exact R|exact T].
  Qed.

  Lemma step_wider len len' c c' : wf c -> len <= len' -> len' <= csize c -> step len c c' -> step len' c c'.
  Proof.
    intros Wc L L' (E1 & E2 & R). repeat split; [assumption..|].
    eapply rearranged_wider; [now apply wf_valid| | | |exact R]; lia.
  Qed.

  Lemma step_out len c c' i : wf c -> len <= csize c -> step len c c' -> len <= i -> g c' i = g c i.
  Proof.
    intros Wc L (E1 & E2 & R) H. unfold g, hv. rewrite E1. apply (v_out d0 (cbase c) (cbase c') (coff c) (coff c + len)).
    - now apply wf_valid.
    - exact R.
    - lia.
  Qed.

  Lemma step_forall (P : A -> Prop) len c c' : wf c -> len <= csize c -> step len c c' ->
    (forall i, i < len -> P (g c i)) -> forall i, i < len -> P (g c' i).
  Proof.
    intros Wc L (E1 & E2 & R) H i Hi. unfold g, hv in *. rewrite E1.
    apply (rearranged_forall d0 P (cbase c) (coff c) (coff c + len) (cbase c')); [now apply wf_valid|exact R| |lia].
    intros j Hj. replace j with (coff c + (j - coff c)) by lia. apply H. lia.
  Qed.

  Lemma wp_less c i j (Q : bool -> Prop) : coff c + i < length (cbase c) -> coff c + j < length (cbase c) ->
    Q (comp (g c i) (g c j)) -> wp (less_at comp c i j) Q.
  Proof.
    intros Hi Hj H. unfold less_at, at_. rewrite !(rd_v d0) by assumption. exact H.
  Qed.

  (** swap_element is a swap of the internal array. *)
  Lemma swap_element_iter c i j : wf c -> coff c <= i < coff c + csize c -> coff c <= j < coff c + csize c ->
    fx_swap_element c i j = (m <- iter_swap (cbase c) i j ;; Ok (Cont m (coff c) (csize c))).
  Proof.
    intros Wc Hi Hj. pose proof Wc as Wc'. unfold wf in Wc'.
    destruct (fx_swap_element_correct_lemma c i j Wc Hi Hj) as (out & (E0 & E1 & E2 & E3) & ->).
    unfold elems in *. rewrite slice_length in E0 by lia. rewrite !nth_error_slice in E1, E2 by lia.
    symmetry. apply wp_det. apply wp_bind. apply wp_swap; [lia|lia|]. intros m' L H1 H2 H3. cbn [wp].
    rewrite with_front_all by lia. f_equal.
    apply paste_ext; rewrite ?E0; [lia| |].
    - intros n Hn. destruct (Nat.eq_dec n i) as [->|N1]; [|destruct (Nat.eq_dec n j) as [->|N2]].
      + rewrite H1, E1. f_equal. lia.
      + rewrite H2, E2. f_equal. lia.
      + rewrite H3, E3 by lia. rewrite nth_error_slice by lia. f_equal. lia.
    - intros n Hn. apply H3; lia.
  Qed.

  Lemma wp_swap_at c i j (Q : cont A -> Prop) : wf c -> i < csize c -> j < csize c ->
    (forall c', (forall len, i < len -> j < len -> len <= csize c -> step len c c') ->
       (forall n, g c' n = fswap (g c) i j n) -> Q c') ->
    wp (swap_at c i j) Q.
  Proof.
    intros Wc Hi Hj H. pose proof Wc as Wc'. unfold wf in Wc'. unfold swap_at. rewrite swap_element_iter by (assumption || lia).
    apply wp_bind. apply (wp_swap_v d0); [lia|lia|]. intros m' L E R. cbn [wp]. apply H.
    - intros len H1 H2 H3. repeat split. cbn [cbase]. apply R; lia.
    - intros n. unfold g, hv, fswap. cbn [cbase coff]. rewrite E.
      destruct (Nat.eqb_spec (coff c + n) (coff c + i)), (Nat.eqb_spec n i), (Nat.eqb_spec (coff c + n) (coff c + j)), (Nat.eqb_spec n j);
        try lia; reflexivity.
  Qed.

  (** ** push_heap *)
  Lemma push_heap_impl_ok : forall d c len n, wf c -> len <= csize c -> n < len -> n < d -> up_inv comp (g c) len n ->
    wp (fx_push_heap_impl comp d c n) (fun c' => step len c c' /\ heapf comp (g c') len).
  Proof.
    induction d as [|d IH]; intros c len n Wc L Hn Hd U; [lia|]. cbn [fx_push_heap_impl].
    pose proof Wc as Wc'. unfold wf in Wc'.
    destruct (Nat.eqb_spec n 0) as [->|N].
    - cbn [wp]. split; [now apply step_refl|]. eapply (up_done comp); [exact U|now left].
    - pose proof (par_lt n ltac:(lia)) as Pn. unfold par in Pn.
      apply wp_bind, wp_less; [lia|lia|]. destruct (comp _ _) eqn:C.
      + apply wp_bind. apply wp_swap_at; [exact Wc|lia|lia|]. intros c1 S1 G1.
        specialize (S1 len ltac:(lia) Hn L). eapply wp_mono.
        * apply (IH c1 len ((n - 1) / 2)); [eapply step_wf; eassumption|destruct S1 as (_ & -> & _); exact L|lia|lia|].
          change ((n - 1) / 2) with (par n). apply (up_step comp W (g c)); [exact U|lia|exact C|].
          intros k Hk. rewrite G1. unfold fswap. unfold par.
          destruct (Nat.eqb_spec k ((n - 1) / 2)), (Nat.eqb_spec k n); try lia; reflexivity.
        * intros c2 [S2 H2]. split; [|exact H2]. eapply step_trans; eassumption.
      + cbn [wp]. split; [now apply step_refl|]. eapply (up_done comp); [exact U|now right].
  Qed.

  (** ** pop_heap *)
  Lemma pop_heap_impl_ok : forall d c len n, wf c -> len <= csize c -> (len - n < d) -> down_inv comp (g c) len n ->
    wp (fx_pop_heap_impl comp d c len n (n * 2 + 1) (n * 2 + 2)) (fun c' => step len c c' /\ heapf comp (g c') len).
  Proof.
    assert (PC : forall i n, 0 < i -> par i = n -> i = n * 2 + 1 \/ i = n * 2 + 2) by (unfold par; intros; lia).
    assert (PL : forall n, par (n * 2 + 1) = n) by (unfold par; intros; lia).
    assert (PR : forall n, par (n * 2 + 2) = n) by (unfold par; intros; lia).
    induction d as [|d IH]; intros c len n Wc L Hd D; [lia|]. cbn [fx_pop_heap_impl].
    pose proof Wc as Wc'. unfold wf in Wc'.
    assert (GO : forall ch, max_child comp (g c) len n ch -> n < ch -> comp (g c n) (g c ch) = true ->
      wp (c1 <- swap_at c n ch ;; fx_pop_heap_impl comp d c1 len ch (ch * 2 + 1) (ch * 2 + 2))
        (fun c' => step len c c' /\ heapf comp (g c') len)).
    { intros ch M Lt C. pose proof M as (M1 & _ & _). apply wp_bind. apply wp_swap_at; [exact Wc|lia|lia|]. intros c1 S1 G1.
      specialize (S1 len ltac:(lia) ltac:(lia) L). eapply wp_mono.
      - apply (IH c1 len ch); [eapply step_wf; eassumption|destruct S1 as (_ & -> & _); exact L|lia|].
        apply (down_step comp W (g c) (g c1) len n ch); [exact D|exact M|exact C|]. intros k _. apply G1.
      - intros c2 [S2 H2]. split; [|exact H2]. eapply step_trans; eassumption. }
    assert (STAY : (forall i, 0 < i -> i < len -> par i = n -> comp (g c n) (g c i) = false) ->
      wp (Ok c) (fun c' => step len c c' /\ heapf comp (g c') len)).
    { intros H. cbn [wp]. split; [now apply step_refl|]. eapply (down_done comp); eassumption. }
    assert (LEFT : n * 2 + 1 < len -> (n * 2 + 2 < len -> comp (g c (n * 2 + 1)) (g c (n * 2 + 2)) = false) ->
      max_child comp (g c) len n (n * 2 + 1)).
    { intros H1 H2. split; [lia|]. split; [apply PL|]. intros i Hi Hl E.
      destruct (PC i n Hi E) as [-> | ->]; [apply (swo_irr comp W)|now apply H2]. }
    assert (CH : forall ch, max_child comp (g c) len n ch -> comp (g c n) (g c ch) = false ->
      forall i, 0 < i -> i < len -> par i = n -> comp (g c n) (g c i) = false).
    { intros ch (_ & _ & M) C i Hi Hl E. apply (swo_neg comp W _ (g c ch)); [exact C|now apply M]. }
    assert (REST : (n * 2 + 2 < len -> comp (g c (n * 2 + 1)) (g c (n * 2 + 2)) = false) ->
      wp (if n * 2 + 1 <? len then
            b <- less_at comp c n (n * 2 + 1) ;;
            if b : bool then c <- swap_at c n (n * 2 + 1) ;; fx_pop_heap_impl comp d c len (n * 2 + 1) ((n * 2 + 1) * 2 + 1) ((n * 2 + 1) * 2 + 2)
            else Ok c
          else Ok c) (fun c' => step len c c' /\ heapf comp (g c') len)).
    { intros H. destruct (Nat.ltb_spec (n * 2 + 1) len) as [C|C].
      - apply wp_bind, wp_less; [lia|lia|]. destruct (comp (g c n) _) eqn:E.
        + apply GO; [now apply LEFT|lia|exact E].
        + apply STAY. eapply CH; [now apply LEFT|exact E].
      - apply STAY. intros i Hi Hl E. destruct (PC i n Hi E); lia. }
    destruct (Nat.ltb_spec (n * 2 + 2) len) as [C|C].
    - apply wp_bind, wp_less; [lia|lia|]. destruct (comp (g c (n * 2 + 1)) _) eqn:E; [|apply REST; auto].
      assert (M : max_child comp (g c) len n (n * 2 + 2)).
      { split; [lia|]. split; [apply PR|]. intros i Hi Hl Ei.
        destruct (PC i n Hi Ei) as [-> | ->]; [now apply (swo_asym comp W)|apply (swo_irr comp W)]. }
      apply wp_bind, wp_less; [lia|lia|]. destruct (comp (g c n) _) eqn:E'.
      + apply GO; [exact M|lia|exact E'].
      + apply STAY. eapply CH; [exact M|exact E'].
    - cbn [bind]. apply REST. lia.
  Qed.

  (** Moving the root behind the heap. *)
  Lemma pop_root_ok d c len : wf c -> len <= csize c -> 0 < len -> len <= d -> heapf comp (g c) len ->
    wp (c1 <- swap_at c 0 (len - 1) ;; fx_pop_heap_impl comp d c1 (len - 1) 0 1 2)
      (fun c' => step len c c' /\ heapf comp (g c') (len - 1) /\ g c' (len - 1) = g c 0).
  Proof.
    intros Wc L Hl Hd H. apply wp_bind. apply wp_swap_at; [exact Wc|lia|lia|]. intros c1 S1 G1.
    specialize (S1 len ltac:(lia) ltac:(lia) L). pose proof (step_wf len c c1 Wc L S1) as W1.
    assert (L1 : len - 1 <= csize c1) by (destruct S1 as (_ & -> & _); lia).
    eapply wp_mono.
    - apply (pop_heap_impl_ok d c1 (len - 1) 0 W1 L1); [lia|]. split; [|lia].
      intros i Hi Hil Hp. pose proof (par_lt i Hi). rewrite !G1. unfold fswap.
      replace (par i =? 0) with false by lia. replace (par i =? len - 1) with false by lia.
      replace (i =? 0) with false by lia. replace (i =? len - 1) with false by lia. apply H; lia.
    - intros c2 [S2 H2]. split; [|split; [exact H2|]].
      + eapply step_trans; [exact Wc|exact L|exact S1|]. eapply step_wider; [exact W1| | |exact S2]; [lia|].
        destruct S1 as (_ & -> & _); exact L.
      + rewrite (step_out (len - 1) c1 c2) by (assumption || lia). rewrite G1. unfold fswap.
        destruct (Nat.eqb_spec (len - 1) 0) as [E|E]; [now rewrite E|]. now rewrite Nat.eqb_refl.
  Qed.

  (** ** sort_heap *)
  Lemma sort_heap_impl_ok : forall len d c, wf c -> len <= csize c -> len < d -> heapf comp (g c) len ->
    wp (fx_sort_heap_impl comp d c len)
      (fun c' => step len c c' /\ forall i j, i < j -> j < len -> comp (g c' j) (g c' i) = false).
  Proof.
    induction len as [|len IH]; intros [|d] c Wc L Hd H; try lia; cbn [fx_sort_heap_impl].
    - cbn [wp Nat.ltb Nat.leb]. split; [now apply step_refl|]. intros; lia.
    - destruct (Nat.ltb_spec (S len) 2) as [C|C].
      + cbn [wp]. split; [now apply step_refl|]. intros; lia.
      + pose proof (pop_root_ok d c (S len) Wc L ltac:(lia) ltac:(lia) H) as P.
        pose proof (heap_root comp W (g c) (S len) H) as Top.
        unfold swap_at in P. rewrite Nat.add_0_r in P. apply wp_out in P. destruct P as (c2 & E & S2 & H2 & Last).
        destruct (fx_swap_element c (coff c) (coff c + (S len - 1))) as [c1| |] eqn:E1; cbn [bind] in E |- *; try discriminate.
        rewrite E. cbn [bind]. replace (S len - 1) with len in * by lia.
        pose proof (step_wf _ _ _ Wc L S2) as W2.
        assert (L2 : len <= csize c2) by (destruct S2 as (_ & -> & _); lia).
        eapply wp_mono; [apply (IH d c2 W2 L2); [lia|exact H2]|].
        intros c3 [S3 H3]. split.
        * eapply step_trans; [exact Wc|exact L|exact S2|]. eapply step_wider; [exact W2| | |exact S3]; [lia|].
          destruct S2 as (_ & -> & _); exact L.
        * intros i j Hij Hj. destruct (Nat.eq_dec j len) as [->|N]; [|apply H3; lia].
          rewrite (step_out len c2 c3 len) by (assumption || lia). rewrite Last.
          apply (step_forall (fun x => comp (g c 0) x = false) len c2 c3); [assumption|assumption|exact S3| |lia].
          intros k Hk. apply (step_forall (fun x => comp (g c 0) x = false) (S len) c c2); [assumption|assumption|exact S2|exact Top|lia].
  Qed.

  (** ** make_heap *)
  (** Position [i] is in the subtree of [n]. *)
  Inductive inside (n : nat) : nat -> Prop :=
  | in_root : inside n n
  | in_child i : 0 < i -> inside n (par i) -> inside n i.

  Lemma inside_le n i : inside n i -> n <= i.
  Proof. induction 1 as [|i Hi _ IH]; [lia|]. pose proof (par_lt i Hi). lia. Qed.

  Lemma inside_inv n i : inside n i -> i = n \/ inside (n * 2 + 1) i \/ inside (n * 2 + 2) i.
  Proof.
    induction 1 as [|i Hi H IH]; [now left|]. right. destruct IH as [E|[IH|IH]].
    - assert (C : i = n * 2 + 1 \/ i = n * 2 + 2) by (unfold par in E; lia).
      destruct C as [-> | ->]; [left|right]; constructor.
    - left. now apply in_child.
    - right. now apply in_child.
  Qed.

  Lemma inside_left n i : inside (n * 2 + 1) i -> inside n i.
  Proof.
    induction 1 as [|i Hi H IH]; [|now apply in_child]. apply in_child; [lia|].
    replace (par (n * 2 + 1)) with n by (unfold par; lia). constructor.
  Qed.

  Lemma inside_right n i : inside (n * 2 + 2) i -> inside n i.
  Proof.
    induction 1 as [|i Hi H IH]; [|now apply in_child]. apply in_child; [lia|].
    replace (par (n * 2 + 2)) with n by (unfold par; lia). constructor.
  Qed.

  Lemma inside_apart n i : inside (n * 2 + 1) i -> inside (n * 2 + 2) i -> False.
  Proof.
    induction i as [i IH] using lt_wf_ind. intros H1 H2. inversion H1 as [E|i' Hi P1 E]; subst.
    - apply inside_le in H2. lia.
    - inversion H2 as [E|i' Hi' P2 E]; subst.
      + apply inside_le in P1. unfold par in P1. lia.
      + pose proof (par_lt i Hi). exact (IH (par i) H P1 P2).
  Qed.

  Definition heap_sub (f : nat -> A) (len n : nat) : Prop :=
    forall i, 0 < i -> i < len -> inside n (par i) -> comp (f (par i)) (f i) = false.

  Lemma heap_sub_top f len n : heap_sub f len n -> forall i, inside n i -> i < len -> comp (f n) (f i) = false.
  Proof.
    intros H i I. induction I as [|i Hi I IH]; intros L; [apply (swo_irr comp W)|].
    pose proof (par_lt i Hi). apply (swo_neg comp W _ (f (par i))); [apply IH; lia|now apply H].
  Qed.

  Definition made (len n : nat) c c' : Prop :=
    step len c c' /\ (forall i, ~ inside n i -> g c' i = g c i) /\
    (forall P : A -> Prop, (forall i, i < len -> inside n i -> P (g c i)) -> forall i, i < len -> inside n i -> P (g c' i)) /\
    heap_sub (g c') len n.

  Lemma make_heap_impl_ok : forall h d c len n, wf c -> len <= csize c -> len < (n + 1) * 2 ^ h -> 2 * h + 1 <= d ->
    wp (fx_make_heap_impl comp d c len n (n * 2 + 1) (n * 2 + 2)) (made len n c).
  Proof.
    assert (NEQ : forall n i, inside (n * 2 + 1) i -> i <> n) by (intros n i I; apply inside_le in I; lia).
    assert (NEQ' : forall n i, inside (n * 2 + 2) i -> i <> n) by (intros n i I; apply inside_le in I; lia).
    assert (LEAF : forall c len n, wf c -> len <= csize c -> len < n * 2 + 2 -> made len n c c).
    { intros c len n Wc L Hlen. split; [now apply step_refl|]. split; [auto|]. split; [auto|].
      intros i Hi Hil I. apply inside_le in I. unfold par in *. lia. }
    induction h as [|h IH]; intros [|d] c len n Wc L Hlen Hd; try lia; cbn [fx_make_heap_impl].
    - replace (len <? n * 2 + 2) with true by (cbn in Hlen; lia). cbn [wp]. apply LEAF; cbn in Hlen; auto; lia.
    - destruct (Nat.ltb_spec len (n * 2 + 2)) as [C|C]; [cbn [wp]; apply LEAF; auto|].
      pose proof Wc as Wc'. unfold wf in Wc'.
      destruct (Nat.eqb_spec (n * 2 + 2) len) as [E|N].
      + (* one child *)
        apply wp_bind, wp_less; [lia|lia|].
        assert (IN : forall i, i < len -> inside n i -> i = n \/ i = n * 2 + 1).
        { intros i Hi I. destruct (inside_inv _ _ I) as [->|[I'|I']]; [now left| |].
          - right. inversion I' as [|? Hp I'' ]; subst; [reflexivity|]. apply inside_le in I''. unfold par in I''. lia.
          - apply inside_le in I'. lia. }
        destruct (comp (g c n) _) eqn:F.
        * apply wp_swap_at; [exact Wc|lia|lia|]. intros c1 S1 G1. specialize (S1 len ltac:(lia) ltac:(lia) L).
          split; [exact S1|]. split; [|split].
          -- intros i Hi. rewrite G1. unfold fswap. destruct (Nat.eqb_spec i n) as [->|]; [exfalso; apply Hi; constructor|].
             destruct (Nat.eqb_spec i (n * 2 + 1)) as [->|]; [exfalso; apply Hi; apply inside_left; constructor|reflexivity].
          -- intros P HP i Hi I. rewrite G1. unfold fswap.
             assert (I1 : inside n (n * 2 + 1)) by (apply inside_left; constructor).
             destruct (Nat.eqb_spec i n) as [->|]; [apply HP; [lia|exact I1]|].
             destruct (Nat.eqb_spec i (n * 2 + 1)); [apply HP; [lia|constructor]|now apply HP].
          -- intros i Hi Hil I. pose proof (par_lt i Hi). destruct (IN (par i) ltac:(lia) I) as [Ep|Ep]; [|unfold par in Ep; lia].
             assert (i = n * 2 + 1) as -> by (unfold par in Ep; lia). rewrite Ep, !G1. unfold fswap.
             rewrite Nat.eqb_refl. replace (n * 2 + 1 =? n) with false by lia. rewrite Nat.eqb_refl. now apply (swo_asym comp W).
        * cbn [wp]. split; [now apply step_refl|]. split; [auto|]. split; [auto|].
          intros i Hi Hil I. pose proof (par_lt i Hi). destruct (IN (par i) ltac:(lia) I) as [Ep|Ep]; [|unfold par in Ep; lia].
          assert (i = n * 2 + 1) as -> by (unfold par in Ep; lia). now rewrite Ep.
      + (* two children *)
        pose proof (inside_apart n) as APART. pose proof (inside_inv n) as INV.
        pose proof (inside_left n) as INL. pose proof (inside_right n) as INR. set (l := n * 2 + 1) in *. set (r := n * 2 + 2) in *.
        apply wp_bind. eapply wp_mono.
        { apply (IH d c len l Wc L); [|lia]. rewrite Nat.pow_succ_r in Hlen by lia.
          replace ((l + 1) * 2 ^ h) with ((n + 1) * (2 * 2 ^ h)) by (unfold l; nia). exact Hlen. }
        intros c1 (S1 & O1 & P1 & H1). pose proof (step_wf _ _ _ Wc L S1) as W1.
        assert (L1 : len <= csize c1) by (destruct S1 as (_ & -> & _); exact L).
        apply wp_bind. eapply wp_mono.
        { apply (IH d c1 len r W1 L1); [|lia]. rewrite Nat.pow_succ_r in Hlen by lia. unfold r. nia. }
        intros c2 (S2 & O2 & P2 & H2). pose proof (step_wf _ _ _ W1 L1 S2) as W2.
        assert (L2 : len <= csize c2) by (destruct S2 as (_ & -> & _); exact L1).
        assert (S12 : step len c c2) by (eapply step_trans; eassumption).
        assert (H1' : heap_sub (g c2) len l).
        { intros i Hi Hil I. assert (I' : inside l i) by now apply in_child.
          rewrite !O2 by (intros ?Z; match goal with H : inside l ?i, Z : inside r ?i |- _ => exact (APART i H Z) end). now apply H1. }
        assert (O12 : forall i, ~ inside n i -> g c2 i = g c i).
        { intros i Hi. rewrite O2, O1; [reflexivity| |]; intros Z; apply Hi; [now apply INL|now apply INR]. }
        assert (N12 : g c2 n = g c n).
        { rewrite O2, O1; [reflexivity| |]; intros Z; apply inside_le in Z; unfold l, r in Z; lia. }
        assert (P12 : forall P : A -> Prop, (forall i, i < len -> inside n i -> P (g c i)) ->
                        forall i, i < len -> inside n i -> P (g c2 i)).
        { intros P HP i Hi I. destruct (INV _ I) as [->|[I'|I']].
          - rewrite N12. apply HP; assumption.
          - rewrite O2 by (intros ?Z; match goal with H : inside l ?i, Z : inside r ?i |- _ => exact (APART i H Z) end). apply (P1 P); [|exact Hi|exact I'].
            intros j Hj Ij. apply HP; [exact Hj|now apply INL].
          - apply (P2 P); [|exact Hi|exact I']. intros j Hj Ij. rewrite O1 by (intros ?Z; match goal with H : inside l ?i, Z : inside r ?i |- _ => exact (APART i H Z) end).
            apply HP; [exact Hj|now apply INR]. }
        pose proof W2 as W2'. unfold wf in W2'.
        assert (EDGES : forall f, heap_sub f len l -> heap_sub f len r -> comp (f n) (f l) = false -> comp (f n) (f r) = false ->
          heap_sub f len n).
        { intros f F1 F2 F3 F4 i Hi Hil I. destruct (INV _ I) as [Ei|[I'|I']]; [|now apply F1|now apply F2].
          rewrite Ei. assert (X : i = l \/ i = r) by (unfold par, l, r in *; lia). destruct X as [-> | ->]; assumption. }
        (* the subtree of child [m] is rebuilt after the exchange *)
        assert (GO : forall m o, m < len -> n < m ->
          (m = l /\ o = r \/ m = r /\ o = l) ->
          comp (g c2 m) (g c2 o) = false -> comp (g c2 n) (g c2 m) = true ->
          wp (c <- swap_at c2 n m ;; match d with 0 => Fuel | S d => fx_make_heap_impl comp d c len m (m * 2 + 1) (m * 2 + 2) end)
             (made len n c)).
        { intros m o Hm Hnm MO Cmo Cnm.
          assert (HM : heap_sub (g c2) len m) by (destruct MO as [[-> _]|[-> _]]; assumption).
          assert (HO : heap_sub (g c2) len o) by (destruct MO as [[_ ->]|[_ ->]]; assumption).
          assert (AP : forall i, inside m i -> inside o i -> False).
          { intros i I1 I2. destruct MO as [[-> ->]|[-> ->]]; match goal with H : inside l ?i, Z : inside r ?i |- _ => exact (APART i H Z) end. }
          assert (IM : forall i, inside m i -> inside n i).
          { intros i I1. destruct MO as [[-> _]|[-> _]]; [now apply INL|now apply INR]. }
          assert (MN : forall i, inside m i -> i <> n).
          { intros i I1. apply inside_le in I1. lia. }
          assert (ON : forall i, inside o i -> i <> n).
          { intros i I1. apply inside_le in I1. destruct MO as [[_ ->]|[_ ->]]; unfold l, r in *; lia. }
          apply wp_bind. apply wp_swap_at; [exact W2|lia|lia|]. intros c3 S3 G3. specialize (S3 len ltac:(lia) Hm L2).
          pose proof (step_wf _ _ _ W2 L2 S3) as W3.
          assert (L3 : len <= csize c3) by (destruct S3 as (_ & -> & _); exact L2).
          destruct d as [|d']; [lia|]. eapply wp_mono.
          { apply (IH d' c3 len m W3 L3); [|lia]. rewrite Nat.pow_succ_r in Hlen by lia.
            assert (l <= m) by (destruct MO as [[-> _]|[-> _]]; unfold l, r; lia). unfold l in *. nia. }
          intros c4 (S4 & O4 & P4 & H4).
          assert (T : forall i, inside m i -> i < len -> comp (g c2 m) (g c3 i) = false).
          { intros i I1 Hi. rewrite G3. unfold fswap. destruct (Nat.eqb_spec i n) as [->|]; [apply (swo_irr comp W)|].
            destruct (Nat.eqb_spec i m) as [->|]; [now apply (swo_asym comp W)|]. now apply (heap_sub_top (g c2) len m). }
          assert (GN : g c4 n = g c2 m).
          { rewrite O4 by (intros Z; now apply MN in Z). rewrite G3. unfold fswap. now rewrite Nat.eqb_refl. }
          assert (GO' : forall i, inside o i -> g c4 i = g c2 i).
          { intros i Io. rewrite O4 by (intros Z; eapply AP; eassumption). rewrite G3. unfold fswap.
            replace (i =? n) with false by (pose proof (ON i Io); lia).
            destruct (Nat.eqb_spec i m) as [->|]; [|reflexivity]. exfalso. apply (AP m); [constructor|exact Io]. }
          assert (HO4 : heap_sub (g c4) len o).
          { intros i Hi Hil I. rewrite !GO' by (exact I || now apply in_child). now apply HO. }
          assert (B1 : comp (g c4 n) (g c4 m) = false).
          { rewrite GN. apply (P4 (fun x => comp (g c2 m) x = false)); [auto|exact Hm|constructor]. }
          assert (B2 : comp (g c4 n) (g c4 o) = false).
          { rewrite GN, GO' by constructor. exact Cmo. }
          split; [|split; [|split]].
          - eapply step_trans; [exact Wc|exact L|exact S12|]. eapply step_trans; eassumption.
          - intros i Hi. rewrite O4 by (intros Z; apply Hi; now apply IM). rewrite G3. unfold fswap.
            destruct (Nat.eqb_spec i n) as [->|]; [exfalso; apply Hi; constructor|].
            destruct (Nat.eqb_spec i m) as [->|]; [exfalso; apply Hi, IM; constructor|]. now apply O12.
          - intros P HP. pose proof (P12 P HP) as HP2.
            assert (HP3 : forall i, i < len -> inside n i -> P (g c3 i)).
            { intros i Hi I. rewrite G3. unfold fswap. destruct (Nat.eqb_spec i n) as [->|]; [apply HP2; [exact Hm|apply IM; constructor]|].
              destruct (Nat.eqb_spec i m) as [->|]; [apply HP2; [lia|constructor]|now apply HP2]. }
            intros i Hi I. destruct (INV _ I) as [->|I'].
            + rewrite GN. apply HP2; [exact Hm|apply IM; constructor].
            + assert (X : inside m i \/ inside o i).
              { destruct MO as [[-> ->]|[-> ->]]; tauto. }
              destruct X as [X|X].
              * apply (P4 P); [|exact Hi|exact X]. intros j Hj Ij. apply HP3; [exact Hj|now apply IM].
              * rewrite GO' by exact X. now apply HP2.
          - destruct MO as [[-> ->]|[-> ->]]; apply EDGES; assumption. }
        assert (STAY : comp (g c2 n) (g c2 l) = false -> comp (g c2 n) (g c2 r) = false -> wp (Ok c2) (made len n c)).
        { intros F1 F2. cbn [wp]. split; [exact S12|]. split; [exact O12|]. split; [exact P12|]. now apply EDGES. }
        unfold fx_make_heap_impl_1. apply wp_bind, wp_less; [unfold l in *; lia|unfold r in *; lia|].
        destruct (comp (g c2 l) (g c2 r)) eqn:Clr.
        * apply wp_bind, wp_less; [lia|unfold r in *; lia|]. destruct (comp (g c2 n) (g c2 r)) eqn:Cnr.
          -- apply (GO r l); [unfold r in *; lia|unfold r; lia|now right|now apply (swo_asym comp W)|exact Cnr].
          -- apply STAY; [|reflexivity]. apply (swo_neg comp W _ (g c2 r)); [exact Cnr|now apply (swo_asym comp W)].
        * apply wp_bind, wp_less; [lia|unfold l in *; lia|]. destruct (comp (g c2 n) (g c2 l)) eqn:Cnl.
          -- apply (GO l r); [unfold l, r in *; lia|unfold l; lia|now left|exact Clr|exact Cnl].
          -- apply STAY; [reflexivity|]. apply (swo_neg comp W _ (g c2 l)); [exact Cnl|exact Clr].
  Qed.

  Lemma inside_zero i : inside 0 i.
  Proof.
    induction i as [i IH] using lt_wf_ind. destruct (Nat.eq_dec i 0) as [->|N]; [constructor|].
    apply in_child; [lia|]. apply IH. apply par_lt. lia.
  Qed.

  Lemma make_heap_ok d c len : wf c -> len <= csize c -> 2 * Nat.log2 len + 3 <= d ->
    wp (fx_make_heap_impl comp d c len 0 1 2) (fun c' => step len c c' /\ heapf comp (g c') len).
  Proof.
    intros Wc L Hd. eapply wp_mono; [apply (make_heap_impl_ok (S (Nat.log2 len)) d c len 0 Wc L)|].
    - rewrite Nat.mul_1_l. destruct (Nat.eq_dec len 0) as [->|N]; [cbn; lia|]. apply Nat.log2_spec. lia.
    - lia.
    - intros c' (S1 & _ & _ & H). split; [exact S1|]. intros i Hi Hl. apply H; [exact Hi|exact Hl|apply inside_zero].
  Qed.

  (** ** make_partial_heap *)
  Lemma partial_heap_1_ok mid : forall k d c n, wf c -> mid <= n -> n + k = csize c -> k + mid < d ->
    heapf comp (g c) mid -> (forall j, mid <= j -> j < n -> comp (g c j) (g c 0) = false) ->
    wp (fx_make_partial_heap_impl_1 comp d c (csize c) mid n)
      (fun c' => step (csize c) c c' /\ heapf comp (g c') mid /\
         forall j, mid <= j -> j < csize c -> comp (g c' j) (g c' 0) = false).
  Proof.
    induction k as [|k IH]; intros [|d] c n Wc Hn Hk Hd H B; try lia; cbn [fx_make_partial_heap_impl_1].
    - replace (n <? csize c) with false by lia. cbn [wp]. split; [now apply step_refl|]. split; [exact H|].
      intros j H1 H2. apply B; lia.
    - replace (n <? csize c) with true by lia. pose proof Wc as Wc'. unfold wf in Wc'.
      apply wp_bind, wp_less; [lia|lia|]. destruct (comp (g c n) (g c 0)) eqn:C.
      + apply wp_bind. apply wp_swap_at; [exact Wc|lia|lia|]. intros c1 S1 G1. specialize (S1 (csize c) ltac:(lia) ltac:(lia) (Nat.le_refl _)).
        pose proof (step_wf _ _ _ Wc (Nat.le_refl _) S1) as W1. pose proof S1 as (_ & E1 & _).
        apply wp_bind. eapply wp_mono.
        { apply (pop_heap_impl_ok d c1 mid 0 W1); [lia|lia|]. split; [|lia].
          intros i Hi Hil Hp. pose proof (par_lt i Hi). rewrite !G1. unfold fswap.
          replace (par i =? n) with false by lia. replace (par i =? 0) with false by lia.
          replace (i =? n) with false by lia. replace (i =? 0) with false by lia. apply H; lia. }
        intros c2 [S2 H2].
        assert (S2' : step (csize c) c1 c2) by (eapply step_wider; [exact W1| | |exact S2]; lia).
        pose proof (step_trans _ _ _ _ Wc (Nat.le_refl _) S1 S2') as S12.
        pose proof (step_wf _ _ _ Wc (Nat.le_refl _) S12) as W2. pose proof S12 as (_ & E2 & _).
        assert (TOP : comp (g c 0) (g c2 0) = false).
        { destruct (Nat.eq_dec mid 0) as [Em|Nm].
          - rewrite (step_out mid c1 c2) by (assumption || lia). rewrite G1. unfold fswap.
            destruct (Nat.eqb_spec 0 n) as [<-|]; [apply (swo_irr comp W)|]. now apply (swo_asym comp W).
          - apply (step_forall (fun x => comp (g c 0) x = false) mid c1 c2); [exact W1|lia|exact S2| |lia].
            intros i Hi. rewrite G1. unfold fswap. destruct (Nat.eqb_spec i n); [lia|].
            destruct (Nat.eqb_spec i 0) as [->|]; [now apply (swo_asym comp W)|]. now apply (heap_root comp W (g c) mid). }
        rewrite <- E2. eapply wp_mono.
        * apply (IH d c2 (n + 1) W2); [lia|lia|lia|exact H2|].
          intros j H1 H3. rewrite (step_out mid c1 c2) by (assumption || lia). rewrite G1. unfold fswap.
          destruct (Nat.eqb_spec j n) as [->|].
          -- exact TOP.
          -- destruct (Nat.eqb_spec j 0) as [->|Nj].
             ++ assert (mid = 0) by lia. rewrite (step_out mid c1 c2 0) by (assumption || lia). rewrite G1. unfold fswap.
                replace (0 =? n) with false by lia. cbn [Nat.eqb]. apply (swo_irr comp W).
             ++ apply (swo_neg comp W _ (g c 0)); [apply B; lia|exact TOP].
        * rewrite E2. intros c3 (S3 & H3 & B3). split; [|auto]. eapply step_trans; [exact Wc|lia|exact S12|exact S3].
      + apply (IH d c (n + 1) Wc); [lia|lia|lia|exact H|].
        intros j H1 H3. destruct (Nat.eq_dec j n) as [->|]; [exact C|]. apply B; lia.
  Qed.

  Lemma partial_heap_ok d c mid : wf c -> mid <= csize c -> csize c + 3 <= d ->
    wp (fx_make_partial_heap_impl comp d c (csize c) mid)
      (fun c' => step (csize c) c c' /\ heapf comp (g c') mid /\
         forall j, mid <= j -> j < csize c -> comp (g c' j) (g c' 0) = false).
  Proof.
    intros Wc Hm Hd. unfold fx_make_partial_heap_impl. apply wp_bind. eapply wp_mono.
    - apply (make_heap_ok d c mid Wc Hm). pose proof (log2_twice mid). lia.
    - intros c1 [S1 H1]. pose proof (step_wf _ _ _ Wc Hm S1) as W1. pose proof S1 as (_ & E1 & _).
      rewrite <- E1. eapply wp_mono; [apply (partial_heap_1_ok mid (csize c1 - mid) d c1 mid W1); [lia|lia|lia|exact H1|lia]|].
      intros c2 (S2 & H2 & B2). split; [|auto]. rewrite E1 in *.
      eapply step_trans; [exact Wc|lia| |exact S2]. eapply step_wider; [exact Wc| | |exact S1]; lia.
  Qed.

  (** ** partial_sort, nth_element *)
  Lemma fx_partial_sort_ok d c middle : wf c -> coff c <= middle <= coff c + csize c -> csize c + 3 <= d ->
    wp (fx_partial_sort comp d c middle)
      (fun c' => step (csize c) c c' /\
         (forall i j, i < j -> j < middle - coff c -> comp (g c' j) (g c' i) = false) /\
         (forall i j, i < middle - coff c -> middle - coff c <= j -> j < csize c -> comp (g c' j) (g c' i) = false)).
  Proof.
    intros Wc M Hd. unfold fx_partial_sort. set (mid := middle - coff c) in *. assert (Hm : mid <= csize c) by lia.
    apply wp_bind. eapply wp_mono; [apply (partial_heap_ok d c mid Wc Hm Hd)|]. intros c1 (S1 & H1 & B1).
    pose proof (step_wf _ _ _ Wc (Nat.le_refl _) S1) as W1. pose proof S1 as (_ & E1 & _).
    eapply wp_mono; [apply (sort_heap_impl_ok mid d c1 W1); [lia|lia|exact H1]|]. intros c2 [S2 H2]. split; [|split; [exact H2|]].
    - eapply step_trans; [exact Wc|lia|exact S1|]. eapply step_wider; [exact W1| | |exact S2]; lia.
    - intros i j Hi Hj Hl. rewrite (step_out mid c1 c2 j) by (assumption || lia).
      apply (step_forall (fun x => comp (g c1 j) x = false) mid c1 c2); [exact W1|lia|exact S2| |exact Hi].
      intros k Hk. apply (swo_neg comp W _ (g c1 0)); [now apply B1|]. now apply (heap_root comp W (g c1) mid).
  Qed.

  Lemma fx_nth_element_ok d c nth : wf c -> coff c <= nth < coff c + csize c -> csize c + 3 <= d ->
    wp (fx_nth_element comp d c nth)
      (fun c' => step (csize c) c c' /\
         (forall i, i < nth - coff c -> comp (g c' (nth - coff c)) (g c' i) = false) /\
         (forall j, nth - coff c < j -> j < csize c -> comp (g c' j) (g c' (nth - coff c)) = false)).
  Proof.
    intros Wc M Hd. unfold fx_nth_element. set (n := nth - coff c) in *. assert (Hm : n + 1 <= csize c) by lia.
    apply wp_bind. eapply wp_mono; [apply (partial_heap_ok d c (n + 1) Wc Hm Hd)|]. intros c1 (S1 & H1 & B1).
    pose proof (step_wf _ _ _ Wc (Nat.le_refl _) S1) as W1. pose proof S1 as (_ & E1 & _).
    pose proof (heap_root comp W (g c1) (n + 1) H1) as Top.
    apply wp_swap_at; [exact W1|lia|lia|]. intros c2 S2 G2. specialize (S2 (csize c1) ltac:(lia) ltac:(lia) (Nat.le_refl _)).
    rewrite E1 in S2. split; [eapply step_trans; [exact Wc|lia|exact S1|exact S2]|].
    assert (GN : g c2 n = g c1 0).
    { rewrite G2. unfold fswap. destruct (Nat.eqb_spec n 0) as [->|]; [reflexivity|]. now rewrite Nat.eqb_refl. }
    rewrite GN. split.
    - intros i Hi. rewrite G2. unfold fswap. destruct (Nat.eqb_spec i 0) as [->|]; [apply Top; lia|].
      destruct (Nat.eqb_spec i n); [lia|]. apply Top. lia.
    - intros j Hj Hl. rewrite G2. unfold fswap. replace (j =? 0) with false by lia. replace (j =? n) with false by lia.
      apply B1; lia.
  Qed.
End P.
