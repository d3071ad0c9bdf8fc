(** Reversing, rotating, swapping, partitioning, shuffling. *)
From Coq Require Import List Arith Bool Lia Permutation FinFun.
From Verif Require Import Base BaseProof SearchModel SearchSpec SearchProof OrderModel OrderSpec ListFacts
  MutModel MutSpec MutProof MutProof2.
Import ListNotations.

Section P.
  Context {A : Type}.
  Implicit Types (m l xs ys P : list A) (first last result k : nat).

  (** ** rearranged *)
  Lemma rearranged_iff m first last m' : valid m first last ->
    rearranged m first last m' <->
    length m' = length m /\ (forall j, j < first \/ last <= j -> nth_error m' j = nth_error m j) /\
    Permutation (slice m first last) (slice m' first last).
  Proof.
    intros [V1 V2]. split.
    - intros (xs & HP & ->). pose proof (Permutation_length HP) as HL. rewrite slice_length in HL by lia.
      split; [apply paste_length; lia|]. split.
      + intros j Hj. apply nth_paste_out; lia.
      + replace (slice (paste m first xs) first last) with xs; [exact HP|]. symmetry.
        replace last with (first + length xs) by lia. apply slice_paste. lia.
    - intros (HL & H1 & H2). exists (slice m' first last). split; [exact H2|].
      apply paste_ext; rewrite slice_length by lia; [lia| |].
      + intros j Hj. rewrite nth_error_slice by lia. f_equal. lia.
      + intros j Hj. apply H1. lia.
  Qed.

  Lemma rearranged_refl m first last : valid m first last -> rearranged m first last m.
  Proof. intros V. apply rearranged_iff; auto. Qed.

  Lemma rearranged_trans m1 m2 m3 first last : valid m1 first last ->
    rearranged m1 first last m2 -> rearranged m2 first last m3 -> rearranged m1 first last m3.
  Proof.
    intros V H1 H2. assert (V2 : valid m2 first last).
    { apply rearranged_iff in H1; [|exact V]. destruct V. split; [lia|]. destruct H1. lia. }
    rewrite rearranged_iff in * by assumption. destruct H1 as (L1&O1&P1), H2 as (L2&O2&P2).
    split; [lia|]. split; [|etransitivity; eauto]. intros j Hj. rewrite O2 by exact Hj. now apply O1.
  Qed.

  Lemma rearranged_valid m first last m' a b : valid m first last -> rearranged m first last m' ->
    valid m a b -> valid m' a b.
  Proof. intros V H [H1 H2]. apply rearranged_iff in H; [|exact V]. split; [lia|]. destruct H. lia. Qed.

  Lemma rearranged_wider m first last m' a b : valid m a b -> first <= last ->
    a <= first -> last <= b -> rearranged m first last m' -> rearranged m a b m'.
  Proof.
    intros V Hfl Ha Hb H. assert (V' : valid m first last) by (destruct V; split; lia).
    apply rearranged_iff in H; [|exact V']. apply rearranged_iff; [exact V|].
    destruct H as (L&O&HP). split; [exact L|]. split; [intros j Hj; apply O; lia|]. destruct V.
    rewrite (slice_app m a first b), (slice_app m first last b) by lia.
    rewrite (slice_app m' a first b), (slice_app m' first last b) by lia.
    assert (E : forall x y, y <= first \/ last <= x -> y <= b -> slice m' x y = slice m x y).
    { intros x y Hxy Hy. apply list_ext. intros j. destruct (Nat.lt_ge_cases j (y - x)).
      - rewrite !nth_error_slice by lia. apply O. lia.
      - rewrite !nth_error_end; rewrite ?slice_length; auto; lia. }
    rewrite (E a first), (E last b) by lia. now apply Permutation_app, Permutation_app_tail.
  Qed.

  Lemma swap_perm m m' i j : i < length m -> j < length m -> length m' = length m ->
    nth_error m' i = nth_error m j -> nth_error m' j = nth_error m i ->
    (forall n, n <> i -> n <> j -> nth_error m' n = nth_error m n) -> Permutation m m'.
  Proof.
    intros Hi Hj HL H1 H2 H3. apply Permutation_nth_error. split; [auto|].
    exists (fun n => if n =? i then j else if n =? j then i else n). split.
    - intros a b. destruct (Nat.eqb_spec a i), (Nat.eqb_spec b i), (Nat.eqb_spec a j), (Nat.eqb_spec b j); lia.
    - intros n. destruct (Nat.eqb_spec n i) as [->|]; [auto|]. destruct (Nat.eqb_spec n j) as [->|]; auto.
  Qed.

  Lemma swap_rearranged m i j m' first last : valid m first last ->
    first <= i < last -> first <= j < last -> iter_swap m i j = Ok m' -> rearranged m first last m'.
  Proof.
    intros V Hi Hj E. destruct (swap_facts m i j m' E) as (Li&Lj&L&E1&E2&E3).
    apply rearranged_iff; [exact V|]. split; [exact L|]. split.
    - intros n Hn. apply E3; lia.
    - destruct V. apply (swap_perm _ _ (i - first) (j - first)); rewrite ?slice_length by lia; try lia.
      + rewrite !nth_error_slice by lia. replace (first + (i - first)) with i by lia. replace (first + (j - first)) with j by lia. exact E1.
      + rewrite !nth_error_slice by lia. replace (first + (i - first)) with i by lia. replace (first + (j - first)) with j by lia. exact E2.
      + intros n N1 N2. destruct (Nat.lt_ge_cases n (last - first)).
        * rewrite !nth_error_slice by lia. apply E3; lia.
        * rewrite !nth_error_end; rewrite ?slice_length; auto; lia.
  Qed.

  Lemma swap_ok m i j : i < length m -> j < length m -> exists m', iter_swap m i j = Ok m'.
  Proof.
    intros Hi Hj. destruct (wp_out (iter_swap m i j) (fun _ => True)) as (m' & H & _); [|eauto].
    apply wp_swap; auto.
  Qed.

  (** ** reverse *)
  Lemma split3 m first last : valid m first last ->
    exists P Q, m = P ++ slice m first last ++ Q /\ length P = first.
  Proof.
    intros V. exists (slice m 0 first), (slice m last (length m)). split; [now apply slice_all|].
    destruct V. rewrite slice_length by lia. lia.
  Qed.

  Lemma reverse_correct_lemma k m first last : valid m first last -> last - first < k ->
    reverse k m first last = Ok (paste m first (rev (slice m first last))).
  Proof.
    intros V Hk. apply wp_det. unfold reverse.
    destruct (split3 m first last V) as (P & Q & Hm & HP).
    assert (HT : paste m first (rev (slice m first last)) = P ++ rev (slice m first last) ++ Q).
    { rewrite <- HP at 1. apply (paste_split m P (slice m first last)); [exact Hm|apply rev_length]. }
    rewrite HT. remember (slice m first last) as X eqn:EX.
    assert (HX : length X = last - first) by (subst X; destruct V; rewrite slice_length; lia).
    apply (wp_iter (fun '((m', f, l) : list A * nat * nat) =>
      exists P' X' Q', m' = P' ++ X' ++ Q' /\ f = length P' /\ l = length P' + length X' /\
        P ++ rev X ++ Q = P' ++ rev X' ++ Q')
      (fun '((m', f, l) : list A * nat * nat) => l - f)); [| |lia].
    2:{ exists P, X, Q. destruct V. repeat split; auto; lia. }
    intros [[m' f] l] (P' & X' & Q' & -> & -> & -> & ->).
    destruct X' as [|a X'].
    { rewrite Nat.add_0_r, Nat.eqb_refl. now apply wp_ok. }
    cbn [length]. destruct (Nat.eqb_spec (length P') (length P' + S (length X'))); [lia|].
    apply wp_bind, wp_dec; [lia|].
    destruct (exists_last (l := a :: X')) as (Y & b & EY); [discriminate|].
    destruct Y as [|a' Y]; cbn [app] in EY; injection EY as -> ->.
    - cbn [length]. replace (length P' + 1 - 1) with (length P') by lia. rewrite Nat.eqb_refl.
      now apply wp_ok.
    - rewrite app_length. cbn [length].
      destruct (Nat.eqb_spec (length P') (length P' + S (length Y + 1) - 1)); [lia|].
      replace (length P' + S (length Y + 1) - 1) with (length P' + S (length Y)) by lia.
      apply wp_bind. eapply wp_eq.
      { apply (swap_split _ P' a' Y b Q'). cbn. now rewrite <- app_assoc. }
      apply wp_ok. split; [|lia].
      exists (P' ++ [b]), Y, (a' :: Q'). rewrite !app_length. cbn [length].
      repeat split; try lia.
      + now rewrite <- app_assoc.
      + cbn [rev]. rewrite rev_app_distr. cbn. now rewrite <- !app_assoc.
  Qed.

  (** ** rotate *)
  Definition rot_inv (T : list A) (last : nat) (s : list A * nat * nat * nat) (a b c : list A) : Prop :=
    let '(m', f, mid, f2) := s in
    exists P Q, m' = P ++ a ++ b ++ c ++ Q /\ f = length P /\ mid = f + length a /\
      f2 = mid + length b /\ last = f2 + length c /\ T = P ++ c ++ b ++ a ++ Q.

  Lemma rot_step T last m' f mid f2 x a b y c : rot_inv T last (m', f, mid, f2) (x :: a) b (y :: c) ->
    exists m'', iter_swap m' f f2 = Ok m'' /\ rot_inv T last (m'', S f, mid, S f2) a (b ++ [x]) c.
  Proof.
    intros (P & Q & -> & -> & -> & -> & -> & ->). cbn [length].
    exists (P ++ y :: (a ++ b) ++ x :: c ++ Q). split.
    - replace (length P + S (length a) + length b) with (length P + S (length (a ++ b))) by (rewrite app_length; lia).
      apply swap_split. cbn. now rewrite <- !app_assoc.
    - exists (P ++ [y]), Q. rewrite !app_length. cbn [length]. rewrite <- !app_assoc. cbn [app].
      repeat split; lia.
  Qed.

  Lemma rot_full T last m' f mid f2 b c : rot_inv T last (m', f, mid, f2) [] b c ->
    rot_inv T last (m', f, f2, f2) b [] c.
  Proof.
    intros (P & Q & -> & -> & -> & -> & -> & ->). exists P, Q. cbn. repeat split; try lia.
  Qed.

  Lemma rot_wrap T last m' f mid f2 a b : rot_inv T last (m', f, mid, f2) a b [] ->
    rot_inv T last (m', f, mid, mid) a [] b.
  Proof.
    intros (P & Q & -> & -> & -> & -> & -> & ->). exists P, Q. cbn. repeat split; lia.
  Qed.

  Lemma rot_done T last m' f mid f2 b : rot_inv T last (m', f, mid, f2) [] b [] -> m' = T.
  Proof. intros (P & Q & -> & _ & _ & _ & _ & ->). reflexivity. Qed.

  Lemma rot_lens T last m' f mid f2 a b c : rot_inv T last (m', f, mid, f2) a b c ->
    mid = f + length a /\ f2 = mid + length b /\ last = f2 + length c.
  Proof. intros (P & Q & _ & _ & H). tauto. Qed.

  Lemma rotate_loop1_ok T last k m' f mid f2 a b c : rot_inv T last (m', f, mid, f2) a b c ->
    a <> [] -> c <> [] -> last - f < k ->
    wp (rotate_loop1 k last (m', f, mid, f2)) (fun '(m'', f', mid') =>
      f' + (f2 - f) = last /\ exists a' b', rot_inv T last (m'', f', mid', last) a' b' [] /\ b' <> []).
  Proof.
    intros HI Ha Hc Hk. unfold rotate_loop1.
    apply (wp_iter (fun s : list A * nat * nat * nat => let '(m'', f', mid', f2') := s in
      f2' - f' = f2 - f /\ exists a b c, rot_inv T last s a b c /\ a <> [] /\ c <> [])
      (fun '((m'', f', mid', f2') : list A * nat * nat * nat) => last - f')); [| |exact Hk].
    2:{ split; [lia|]. exists a, b, c. auto. }
    clear. intros [[[m' f'] mid] f2'] (Hd & a & b & c & HI & Ha & Hc).
    destruct a as [|x a]; [congruence|]. destruct c as [|y c]; [congruence|]. clear Ha Hc.
    pose proof (rot_lens _ _ _ _ _ _ _ _ _ HI) as (E1 & E2 & E3). cbn [length] in *.
    destruct (rot_step _ _ _ _ _ _ _ _ _ _ _ HI) as (m1 & Em & HI1).
    apply wp_bind. eapply wp_eq; [exact Em|]. cbv zeta.
    destruct (Nat.eqb_spec (S f2') last) as [E|E].
    - apply wp_ok. assert (c = []) as -> by (destruct c; [reflexivity|cbn in *; lia]).
      split; [lia|]. exists a, (b ++ [x]). rewrite E in HI1. split; [exact HI1|now destruct b].
    - assert (c <> []) by (intros ->; cbn in *; lia). apply wp_ok. split; [|lia]. split; [lia|].
      destruct (Nat.eqb_spec (S f') mid) as [E'|E'].
      + assert (a = []) as -> by (destruct a; [reflexivity|cbn in *; lia]).
        exists (b ++ [x]), [], c. split; [|split; [now destruct b|assumption]].
        eapply rot_full; exact HI1.
      + exists a, (b ++ [x]), c. split; [exact HI1|]. split; [intros ->; cbn in *; lia|assumption].
  Qed.

  Lemma rotate_loop2_ok T last k m' f mid f2 a b c : rot_inv T last (m', f, mid, f2) a b c ->
    a <> [] -> c <> [] -> last - f < k ->
    wp (rotate_loop2 k last (m', f, mid, f2)) (fun m'' => m'' = T).
  Proof.
    intros HI Ha Hc Hk. unfold rotate_loop2.
    apply (wp_iter (fun s : list A * nat * nat * nat =>
      exists a b c, rot_inv T last s a b c /\ a <> [] /\ c <> [])
      (fun '((m'', f', mid', f2') : list A * nat * nat * nat) => last - f')); [| |exact Hk].
    2:{ exists a, b, c. auto. }
    clear. intros [[[m' f'] mid] f2'] (a & b & c & HI & Ha & Hc).
    destruct a as [|x a]; [congruence|]. destruct c as [|y c]; [congruence|]. clear Ha Hc.
    pose proof (rot_lens _ _ _ _ _ _ _ _ _ HI) as (E1 & E2 & E3). cbn [length] in *.
    destruct (rot_step _ _ _ _ _ _ _ _ _ _ _ HI) as (m1 & Em & HI1).
    apply wp_bind. eapply wp_eq; [exact Em|]. cbv zeta.
    destruct (Nat.eqb_spec (S f2') last) as [E|E].
    - assert (c = []) as -> by (destruct c; [reflexivity|cbn in *; lia]).
      destruct (Nat.eqb_spec (S f') mid) as [E'|E'].
      + assert (a = []) as -> by (destruct a; [reflexivity|cbn in *; lia]).
        apply wp_ok. eapply rot_done; exact HI1.
      + apply wp_ok. split; [|lia]. exists a, [], (b ++ [x]). split; [eapply rot_wrap; exact HI1|].
        split; [intros ->; cbn in *; lia|now destruct b].
    - assert (c <> []) by (intros ->; cbn in *; lia).
      destruct (Nat.eqb_spec (S f') mid) as [E'|E'].
      + assert (a = []) as -> by (destruct a; [reflexivity|cbn in *; lia]).
        apply wp_ok. split; [|lia]. exists (b ++ [x]), [], c. split; [|split; [now destruct b|assumption]].
        eapply rot_full; exact HI1.
      + apply wp_ok. split; [|lia]. exists a, (b ++ [x]), c. split; [exact HI1|].
        split; [intros ->; cbn in *; lia|assumption].
  Qed.

  Lemma rotate_correct_lemma k m first middle last :
    valid m first last -> first <= middle <= last -> last - first < k ->
    rotate k m first middle last =
      Ok (paste m first (slice m middle last ++ slice m first middle), first + (last - middle)).
  Proof.
    intros V Hm Hk. pose proof V as [V1 V2]. unfold rotate.
    destruct (Nat.eqb_spec first middle) as [<-|N1].
    { rewrite (slice_nil m first first), app_nil_r, paste_slice by (auto; lia).
      now replace (first + (last - first)) with last by lia. }
    destruct (Nat.eqb_spec middle last) as [->|N2].
    { rewrite (slice_nil m last last) by lia. cbn [app]. rewrite paste_slice by auto.
      now replace (first + (last - last)) with first by lia. }
    set (T := paste m first (slice m middle last ++ slice m first middle)).
    assert (HI : rot_inv T last (m, first, middle, middle) (slice m first middle) [] (slice m middle last)).
    { destruct (split3 m first last V) as (P & Q & E & HP). exists P, Q. cbn [app length].
      rewrite !slice_length by lia. rewrite (slice_app m first middle last) in E by lia.
      rewrite <- app_assoc in E. repeat split; auto; try lia.
      unfold T. rewrite <- HP at 1.
      rewrite (paste_split m P (slice m first middle ++ slice m middle last) Q).
      - now rewrite <- app_assoc.
      - now rewrite <- app_assoc.
      - rewrite !app_length. lia. }
    apply wp_det. apply wp_bind.
    assert (slice m first middle <> []).
    { intros E. apply (f_equal (@length A)) in E. rewrite slice_length in E by lia. cbn in E. lia. }
    assert (slice m middle last <> []).
    { intros E. apply (f_equal (@length A)) in E. rewrite slice_length in E by lia. cbn in E. lia. }
    eapply wp_mono; [eapply rotate_loop1_ok; eauto|].
    intros [[m1 f1] mid1] (Hf & a & b & HI1 & Hb).
    pose proof (rot_lens _ _ _ _ _ _ _ _ _ HI1) as (E1 & E2 & E3). cbn in E3.
    destruct (Nat.eqb_spec f1 mid1) as [E|E].
    - assert (a = []) as -> by (destruct a; [reflexivity|cbn in *; lia]).
      apply wp_ok. rewrite (rot_done _ _ _ _ _ _ _ HI1). f_equal. lia.
    - apply wp_bind. apply rot_wrap in HI1.
      eapply wp_mono; [eapply rotate_loop2_ok; [exact HI1|intros ->; cbn in *; lia|exact Hb|lia]|].
      intros m2 ->. apply wp_ok. f_equal. lia.
  Qed.
End P.
