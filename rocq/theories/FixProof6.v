(** Fixed containers: shuffle and random_swap; refutations. *)
From Coq Require Import List Arith NArith Bool Lia Permutation ZArith ZifyBool ZifyNat.
From Verif Require Import Base BaseProof SearchModel SearchSpec SearchProof OrderSpec OrderModel ListFacts
  MutModel MutSpec MutProof MutProof2 MutProof3 NumSpec SetSpec SortSpec.
From Verif Require Import FixModel FixSpec FixProof FixProof2.
Import ListNotations.

Section E.
  Context {A : Type}.

  Lemma exchanges_app (xs ys zs : list A) ps qs : exchanges xs ps ys -> exchanges ys qs zs -> exchanges xs (ps ++ qs) zs.
  Proof. intros H1 H2. induction H1 as [|xs i j ys ps zs' E _ IH]; [exact H2|]. econstructor; [exact E|auto]. Qed.

  Lemma exchanged_perm (xs ys : list A) i j : i < length xs -> j < length xs -> exchanged xs i j ys -> Permutation xs ys.
  Proof.
    intros Hi Hj (L & E1 & E2 & E3). apply (Permutation_sym). apply Permutation_nth_error. split; [auto|].
    exists (fun n => if n =? i then j else if n =? j then i else n). split.
    - intros a b. destruct (Nat.eqb_spec a i), (Nat.eqb_spec b i), (Nat.eqb_spec a j), (Nat.eqb_spec b j); lia.
    - intros n. destruct (Nat.eqb_spec n i) as [->|]; [now symmetry|]. destruct (Nat.eqb_spec n j) as [->|]; [now symmetry|]. symmetry. now apply E3.
  Qed.

  Lemma exchanged_same (xs : list A) i : exchanged xs i i xs.
  Proof. repeat split. Qed.

  (** Exchanging indexes exchanges the elements they stand for. *)
  Lemma exchanged_map {B} (f : A -> B) (xs ys : list A) n i j : i < n -> j < n -> n <= length xs -> exchanged xs i j ys ->
    exchanged (map f (firstn n xs)) i j (map f (firstn n ys)).
  Proof.
    intros Hi Hj Hn (L & E1 & E2 & E3).
    assert (NF : forall (l : list A) k, k < n -> nth_error (firstn n l) k = nth_error l k).
    { intros l k Hk. revert l k Hk. clear. induction n as [|n IH]; intros [|x l] [|k] Hk; try lia; try reflexivity. cbn. apply IH. lia. }
    split; [rewrite !map_length, !firstn_length; lia|]. rewrite !nth_error_map, !NF, E1, E2 by assumption.
    split; [reflexivity|]. split; [reflexivity|]. intros k N1 N2. rewrite !nth_error_map.
    destruct (Nat.lt_ge_cases k n) as [C|C]; [rewrite !NF by exact C; now rewrite E3|].
    transitivity (@None B); [|symmetry]; replace (nth_error (firstn n _) k) with (@None A); try reflexivity;
      symmetry; apply nth_error_None; rewrite firstn_length; lia.
  Qed.
End E.

Section P.
  Context {A G : Type}.
  Variable dist : G -> nat -> nat -> nat * G.
  Hypothesis D : in_interval dist.

  Lemma swap_full (l : list nat) i j : i < length l -> j < length l ->
    exists l', exchanged l i j l' /\ fx_swap_element (Cont l 0 (length l)) i j = Ok (Cont l' 0 (length l)).
  Proof.
    intros Hi Hj. destruct (fx_swap_element_correct_lemma (Cont l 0 (length l)) i j) as (out & E & ->); cbn [coff csize cbase];
      [unfold wf; cbn; lia|lia|lia|]. unfold elems in E. cbn [coff csize cbase] in E. rewrite Nat.add_0_l, slice_full, !Nat.sub_0_r in E.
    exists out. split; [exact E|]. rewrite with_front_all by (cbn [csize]; destruct E as [-> _]; lia). cbn [coff csize cbase].
    f_equal. f_equal. unfold paste. destruct E as [E _]. rewrite E. cbn [firstn app]. rewrite Nat.add_0_l, skipn_all. apply app_nil_r.
  Qed.

  Lemma indexes_1_ok n : 1 < n -> forall k i l g0 d, i + S k = n -> n <= length l -> k < d ->
    (forall p j, p < n -> nth_error l p = Some j -> j < n) ->
    let '(rs, g') := draws (fun g => dist g 0 (n - 1)) (S k) g0 in
    exists l', length l' = length l /\
      fx_make_shuffle_indexes_1 dist d n (dist g0 0 (n - 1)) (Cont l 0 (length l)) i = Ok (Cont l' 0 (length l), g') /\
      (forall p j, p < n -> nth_error l' p = Some j -> j < n) /\
      forall (B : Type) (f : nat -> B), exchanges (map f (firstn n l)) (combine (seq i (S k)) rs) (map f (firstn n l')).
  Proof.
    intros Hn. induction k as [|k IH]; intros i l g0 [|d] Hi Hl Hd HB; try lia; cbn [draws fx_make_shuffle_indexes_1];
      destruct (dist g0 0 (n - 1)) as [r g1] eqn:E; pose proof (D g0 0 (n - 1) ltac:(lia)) as Hr; rewrite E in Hr; cbn [fst snd coff] in *;
      rewrite ?Nat.add_0_l;
      destruct (swap_full l i r ltac:(lia) ltac:(lia)) as (l' & EX & ES);
      (assert (HB' : forall p j, p < n -> nth_error l' p = Some j -> j < n)
        by (intros p j Hp Hj; destruct EX as (_ & E1 & E2 & E3);
            destruct (Nat.eq_dec p i) as [->|N1]; [rewrite E1 in Hj; apply (HB r); [lia|exact Hj]|];
            destruct (Nat.eq_dec p r) as [->|N2]; [rewrite E2 in Hj; apply (HB i); [lia|exact Hj]|];
            rewrite E3 in Hj by assumption; now apply (HB p))).
    - replace (i <? n - 1) with false by lia. rewrite ES. cbn [bind]. exists l'. split; [apply EX|]. split; [reflexivity|].
      split; [exact HB'|]. intros B f. cbn [seq combine]. econstructor; [|constructor]. apply exchanged_map; try lia. exact EX.
    - replace (i <? n - 1) with true by lia. rewrite ES. cbn [bind].
      specialize (IH (i + 1) l' g1 d). replace (length l) with (length l') in * by apply EX.
      cbn [draws] in IH |- *. destruct (dist g1 0 (n - 1)) as [r1 g2] eqn:E1.
      destruct (draws (fun g => dist g 0 (n - 1)) k g2) as [rs g'] eqn:ED.
      destruct (IH ltac:(lia) ltac:(lia) ltac:(lia) HB') as (l2 & L2 & E2 & B2 & X2).
      exists l2. split; [exact L2|]. split; [exact E2|]. split; [exact B2|]. intros B f.
      change (combine (seq i (S (S k))) (r :: r1 :: rs)) with ((i, r) :: combine (seq (S i) (S k)) (r1 :: rs)).
      econstructor; [apply (exchanged_map f l l' n); [lia|lia|destruct EX as [EL _]; lia|exact EX]|]. replace (S i) with (i + 1) by lia. apply X2.
  Qed.

  Lemma counting_seq n s : counting S s n = seq s n.
  Proof. revert s. induction n as [|n IH]; intros s; [reflexivity|]. cbn. now rewrite IH. Qed.

  Lemma map_slice (m : list A) d0 off n : off + n <= length m -> map (fun j => nth (off + j) m d0) (seq 0 n) = slice m off (off + n).
  Proof.
    intros H. apply list_ext. intros i. destruct (Nat.lt_ge_cases i n) as [C|C].
    - rewrite nth_error_map. rewrite nth_error_slice by lia.
      replace (nth_error (seq 0 n) i) with (Some i).
      + cbn. symmetry. apply nth_error_nth'. lia.
      + symmetry. rewrite (nth_error_nth' _ 0) by (rewrite seq_length; lia). now rewrite seq_nth.
    - transitivity (@None A); [|symmetry]; apply nth_error_None; rewrite ?map_length, ?seq_length, ?slice_length; lia.
  Qed.

  Lemma exchanges_perm {B} (xs : list B) ps ys : exchanges xs ps ys ->
    (forall i j, In (i, j) ps -> i < length xs /\ j < length xs) -> Permutation xs ys.
  Proof.
    induction 1 as [|xs i j ys ps zs E _ IH]; intros H; [reflexivity|].
    destruct (H i j (or_introl eq_refl)) as [Hi Hj]. transitivity ys; [now apply (exchanged_perm xs ys i j)|]. apply IH.
    intros a b Hab. destruct E as [-> _]. apply H. now right.
  Qed.

  Lemma draws_below n k : 0 < k -> forall g, Forall (fun r => r < k) (fst (draws (fun g => dist g 0 (k - 1)) n g)).
  Proof.
    intros Hk. induction n as [|n IH]; intros g0; [constructor|]. cbn [draws].
    destruct (dist g0 0 (k - 1)) as [r g1] eqn:E. pose proof (D g0 0 (k - 1) ltac:(lia)) as Hr. rewrite E in Hr. cbn [fst] in Hr.
    specialize (IH g1). destruct (draws (fun g => dist g 0 (k - 1)) n g1) as [rs g2]. cbn [fst] in *. constructor; [lia|exact IH].
  Qed.

  Lemma fx_shuffle_partial_lemma d (c : cont A) (g0 : G) : wf c -> csize c <= d ->
    (csize c <= 1 -> fx_shuffle_result dist d c g0 = Ok (c, g0)) /\
    (1 < csize c -> forall rs g', draws (fun g => dist g 0 (csize c - 1)) (csize c) g0 = (rs, g') ->
      exists out, fx_shuffle_result dist d c g0 = Ok (with_front c out, g') /\
        exchanges (elems c) (combine (seq 0 (csize c)) rs) out /\ Permutation (elems c) out).
  Proof.
    intros Wc Hd. pose proof Wc as Wc'. unfold wf in Wc'. unfold fx_shuffle_result, fx_make_shuffle_indexes, static_size. split.
    - intros Hs. replace (1 <? csize c) with false by lia. cbn [bind cbase].
      rewrite (remake_indexes_ok c _ (cbase c)); [now destruct c|reflexivity|]. intros i Hi.
      destruct ((coff c <=? i) && (i <? coff c + csize c)) eqn:E; [|reflexivity]. assert (i = coff c) as -> by lia.
      rewrite Nat.sub_diag. destruct (cbase c) as [|x b] eqn:EB; [cbn in Hi; lia|]. cbn [length repeat]. unfold rd at 1. cbn [nth_error bind].
      now rewrite Nat.add_0_r.
    - intros Hs rs g' ED. replace (1 <? csize c) with true by lia.
      assert (X0 : exists d0 : A, True) by (destruct (cbase c); [cbn in Wc'; lia|eauto]). destruct X0 as [d0 _].
      assert (I : fx_iota (Cont (repeat 0 (length (cbase c))) 0 (length (cbase c))) 0 =
                  Ok (Cont (seq 0 (length (cbase c))) 0 (length (seq 0 (length (cbase c)))))).
      { rewrite fx_iota_correct_lemma by (unfold wf; cbn; rewrite repeat_length; lia). cbn [csize].
        rewrite counting_seq, with_front_all by (cbn; rewrite seq_length; lia). cbn [cbase coff csize].
        rewrite seq_length. do 2 f_equal. unfold paste. rewrite seq_length. cbn [firstn app].
        rewrite Nat.add_0_l, skipn_all2 by (rewrite repeat_length; lia). apply app_nil_r. }
      rewrite I. cbn [bind]. set (L := seq 0 (length (cbase c))).
      assert (LL : length L = length (cbase c)) by apply seq_length.
      assert (FL : firstn (csize c) L = seq 0 (csize c)).
      { unfold L. replace (length (cbase c)) with (csize c + (length (cbase c) - csize c)) by lia.
        rewrite seq_app, firstn_app, seq_length, Nat.sub_diag. cbn [firstn]. rewrite app_nil_r. rewrite firstn_all2; [reflexivity|].
        rewrite seq_length. lia. }
      pose proof (indexes_1_ok (csize c) Hs (csize c - 1) 0 L g0 d ltac:(lia) ltac:(lia) ltac:(lia)) as H.
      replace (S (csize c - 1)) with (csize c) in H by lia. rewrite ED in H.
      destruct H as (l' & L' & -> & B & X).
      { intros p j Hp Hj. unfold L in Hj. rewrite (nth_error_nth' _ 0) in Hj by (rewrite seq_length; lia).
        rewrite seq_nth in Hj by lia. injection Hj as <-. lia. }
      cbn [bind cbase].
      set (f := fun j => nth (coff c + j) (cbase c) d0). specialize (X A f). rewrite FL in X. unfold f in X at 1.
      rewrite map_slice in X by lia. fold (elems c) in X.
      set (out := map f (firstn (csize c) l')) in *.
      assert (LO : length out = csize c) by (unfold out; rewrite map_length, firstn_length; lia).
      exists out. split; [|split; [exact X|]].
      + rewrite with_front_all by lia. rewrite (remake_indexes_ok c _ (paste (cbase c) (coff c) out)); [reflexivity|apply paste_length; lia|].
        rewrite paste_length by lia. intros i Hi. destruct ((coff c <=? i) && (i <? coff c + csize c)) eqn:E.
        * destruct (nth_error_ex l' (i - coff c) ltac:(lia)) as [j Hj]. rewrite (rd_ok _ _ _ Hj). cbn [bind].
          assert (Hb : j < csize c) by (apply (B (i - coff c)); [lia|exact Hj]).
          apply rd_eq. rewrite nth_paste_in by lia. unfold out. rewrite nth_error_map.
          assert (NF : forall n (l : list nat) k, k < n -> nth_error (firstn n l) k = nth_error l k).
          { clear. induction n as [|n IH]; intros [|x l] [|k] Hk; try lia; try reflexivity. cbn. apply IH. lia. }
          rewrite NF, Hj by lia. cbn. unfold f. apply nth_error_nth'. lia.
        * apply rd_eq. symmetry. apply nth_paste_out; lia.
      + apply (exchanges_perm _ _ _ X). intros i j Hij.
        pose proof (in_combine_l _ _ _ _ Hij) as H1. apply in_seq in H1. pose proof (in_combine_r _ _ _ _ Hij) as H2.
        pose proof (draws_below (csize c) (csize c) ltac:(lia) g0) as FB. rewrite ED in FB. cbn [fst] in FB.
        rewrite Forall_forall in FB. specialize (FB j H2). unfold elems. rewrite slice_length by lia. lia.
  Qed.

  Lemma fx_random_swap_correct_lemma (c : cont A) (g0 : G) : wf c ->
    (csize c <= 1 -> fx_random_swap_result dist c g0 = Ok (c, g0)) /\
    (1 < csize c -> forall i g1 j g2, dist g0 0 (csize c - 1) = (i, g1) -> dist g1 0 (csize c - 1) = (j, g2) ->
      exists out, fx_random_swap_result dist c g0 = Ok (with_front c out, g2) /\ exchanged (elems c) i j out /\
        Permutation (elems c) out).
  Proof.
    intros Wc. pose proof Wc as Wc'. unfold wf in Wc'. unfold fx_random_swap_result. split.
    - intros Hs. replace (1 <? csize c) with false by lia. reflexivity.
    - intros Hs i g1 j g2 E1 E2. replace (1 <? csize c) with true by lia. rewrite E1, E2.
      pose proof (D g0 0 (csize c - 1) ltac:(lia)) as H1. rewrite E1 in H1. cbn [fst] in H1.
      pose proof (D g1 0 (csize c - 1) ltac:(lia)) as H2. rewrite E2 in H2. cbn [fst] in H2.
      assert (LE : length (elems c) = csize c) by (unfold elems; rewrite slice_length; lia).
      destruct (Nat.eqb_spec i j) as [->|N].
      + exists (elems c). split; [|split; [apply exchanged_same|reflexivity]].
        rewrite with_front_all by lia. unfold elems. rewrite paste_slice by (split; lia). now destruct c.
      + destruct (fx_swap_element_correct_lemma c (coff c + i) (coff c + j) Wc ltac:(lia) ltac:(lia)) as (out & E & ->).
        replace (coff c + i - coff c) with i in E by lia. replace (coff c + j - coff c) with j in E by lia.
        exists out. split; [reflexivity|]. split; [exact E|]. apply (exchanged_perm _ _ i j); try lia. exact E.
  Qed.
End P.

(** ** Refutations *)
Lemma scripted_in_interval : in_interval scripted.
Proof.
  intros g a b H. unfold scripted. destruct g as [|r g]; cbn [fst]; [lia|].
  pose proof (Nat.mod_upper_bound r (b - a + 1) ltac:(lia)). lia.
Qed.

Lemma fx_shuffle_refuted_lemma :
  let times p := length (filter (fun s => match fx_shuffle_result scripted 3 (Cont [1;2;3] 0 3) s with
                           | Ok (c, _) => if list_eq_dec Nat.eq_dec (cbase c) p then true else false
                           | _ => false end) (scripts 3 3)) in
  in_interval scripted /\ length (scripts 3 3) = 27 /\ NoDup (scripts 3 3) /\ times [1;2;3] = 4 /\ times [2;1;3] = 5.
Proof.
  cbv zeta. split; [exact scripted_in_interval|]. split; [reflexivity|]. split; [|split; vm_compute; reflexivity].
  assert (N : forall (l : list (list nat)), nodup (list_eq_dec Nat.eq_dec) l = l -> NoDup l).
  { intros l E. rewrite <- E. apply NoDup_nodup. }
  apply N. vm_compute. reflexivity.
Qed.

Lemma fx_nth_element_refuted_lemma : fx_nth_element Nat.ltb 20 (Cont [1;2] 0 2) 2 = UB.
Proof. vm_compute. reflexivity. Qed.

Lemma fx_stable_sort_refuted_lemma : fx_stable_sort Nat.ltb 30 (Cont [1;2] 0 0) = UB.
Proof. vm_compute. reflexivity. Qed.

Lemma fx_unique_copy_refuted_lemma :
  fx_unique_copy Nat.eqb 9 [7;8] 0 2 (Cont [1;2;3] 1 0) = Ok (Cont [1;7;3] 1 0).
Proof. vm_compute. reflexivity. Qed.

Lemma fx_partial_sum_refuted_lemma :
  fx_partial_sum Nat.add 9 [7;8] 0 2 (Cont [1;2;3] 1 0) = Ok (Cont [1;7;3] 1 0).
Proof. vm_compute. reflexivity. Qed.

Lemma fx_recurrence_refuted_lemma :
  fx_recurrence 9 (Cont [9] 0 1) (fun l => list_sum l) [0;1] = Ok (Cont [1] 0 1).
Proof. vm_compute. reflexivity. Qed.
