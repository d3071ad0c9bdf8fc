(** Proofs about UuidModel.v: parsing and printing. *)
From Coq Require Import List Arith ZArith Bool Lia ZifyBool ZifyNat.
From Verif Require Import Base BitModel SearchModel SearchSpec SearchProof OrderSpec ShaModel ShaSpec BstrModel BstrSpec BstrProof BstrProof2 UuidModel UuidSpec.
Import ListNotations.
Open Scope Z_scope.
Ltac Zify.zify_post_hook ::= idtac.

(** ** Digits *)
Lemma get_value_ok d c : (depth_bound 22 <= d)%nat ->
  get_value d c = Ok (match hexval c with Some v => Done v | None => Throw Not_a_digit end).
Proof.
  intros D. unfold get_value.
  destruct (find_correct_lemma Z.eqb true d digits 0 22 c) as (r & E & (R & NB & AT)).
  { split; cbn; lia. } { exact D. }
  rewrite E. cbn [bind]. rewrite Nat.sub_0_r. unfold value_at.
  destruct (Nat.ltb_spec r 22) as [L|L].
  - destruct (AT L) as (x & N & EQ). apply Z.eqb_eq in EQ. subst x. clear AT NB E D.
    do 22 (destruct r as [|r]; [cbn in N; injection N as <-; reflexivity|]). lia.
  - assert (NE : forall j, (j < 22)%nat -> nth j digits 0 <> c).
    { intros j J EQ. apply (NB j); [lia|]. exists (nth j digits 0). split.
      - apply nth_error_nth'. cbn. lia.
      - apply Z.eqb_eq. exact EQ. }
    clear NB AT E R L.
    pose proof (NE 0%nat ltac:(lia)) as N0. pose proof (NE 1%nat ltac:(lia)) as N1. pose proof (NE 2%nat ltac:(lia)) as N2.
    pose proof (NE 3%nat ltac:(lia)) as N3. pose proof (NE 4%nat ltac:(lia)) as N4. pose proof (NE 5%nat ltac:(lia)) as N5.
    pose proof (NE 6%nat ltac:(lia)) as N6. pose proof (NE 7%nat ltac:(lia)) as N7. pose proof (NE 8%nat ltac:(lia)) as N8.
    pose proof (NE 9%nat ltac:(lia)) as N9. pose proof (NE 10%nat ltac:(lia)) as N10. pose proof (NE 11%nat ltac:(lia)) as N11.
    pose proof (NE 12%nat ltac:(lia)) as N12. pose proof (NE 13%nat ltac:(lia)) as N13. pose proof (NE 14%nat ltac:(lia)) as N14.
    pose proof (NE 15%nat ltac:(lia)) as N15. pose proof (NE 16%nat ltac:(lia)) as N16. pose proof (NE 17%nat ltac:(lia)) as N17.
    pose proof (NE 18%nat ltac:(lia)) as N18. pose proof (NE 19%nat ltac:(lia)) as N19. pose proof (NE 20%nat ltac:(lia)) as N20.
    pose proof (NE 21%nat ltac:(lia)) as N21. clear NE.
    cbn [nth digits] in *.
    assert (H : hexval c = None).
    { unfold hexval.
      destruct ((48 <=? c) && (c <=? 57)) eqn:E1; [lia|].
      destruct ((97 <=? c) && (c <=? 102)) eqn:E2; [lia|].
      destruct ((65 <=? c) && (c <=? 70)) eqn:E3; [lia|reflexivity]. }
    rewrite H. reflexivity.
Qed.

Lemma hexval_bound c v : hexval c = Some v -> 0 <= v < 16.
Proof.
  unfold hexval.
  destruct ((48 <=? c) && (c <=? 57)) eqn:E1; [intros [= <-]; lia|].
  destruct ((97 <=? c) && (c <=? 102)) eqn:E2; [intros [= <-]; lia|].
  destruct ((65 <=? c) && (c <=? 70)) eqn:E3; [intros [= <-]; lia|discriminate].
Qed.
Lemma hexv_bound c : 0 <= hexv c < 16.
Proof. unfold hexv. destruct (hexval c) eqn:E; [now apply hexval_bound in E|lia]. Qed.
Lemma hex_dash : ~ hex 45. Proof. intros H. now apply H. Qed.
Lemma hex_lbrace : ~ hex 123. Proof. intros H. now apply H. Qed.

(** ** Bytes: a check of all 256 values is a proof *)
Lemma byte_all (P : Z -> bool) : forallb P (map Z.of_nat (seq 0 256)) = true -> forall b, is_byte b -> P b = true.
Proof.
  intros H b B. rewrite forallb_forall in H. apply H. apply in_map_iff. exists (Z.to_nat b).
  unfold is_byte in B. split; [lia|]. apply in_seq. lia.
Qed.
Lemma nibble_all (P : Z -> bool) : forallb P (map Z.of_nat (seq 0 16)) = true -> forall b, 0 <= b < 16 -> P b = true.
Proof.
  intros H b B. rewrite forallb_forall in H. apply H. apply in_map_iff. exists (Z.to_nat b).
  split; [lia|]. apply in_seq. lia.
Qed.

Lemma two_digits v w : 0 <= v < 16 -> 0 <= w < 16 ->
  exists x, shl false i32 v 4 = Ok x /\ conv u8 (Z.lor x w) = 16 * v + w.
Proof.
  intros V W.
  assert (S4 : shl false i32 v 4 = Ok (16 * v)).
  { unfold shl. cbn [andb negb]. change (wid i32) with 32. change (sgn i32) with true.
    change (2 ^ 4) with 16. change (2 ^ 32) with 4294967296.
    replace (0 <=? 4) with true by reflexivity. replace (4 <? 32) with true by reflexivity. cbn [andb negb].
    replace ((v <? 0) || (4294967296 <=? v * 16)) with false by lia.
    f_equal. unfold conv. change (wid i32) with 32. change (sgn i32) with true.
    change (2 ^ 32) with 4294967296. change (2 ^ (32 - 1)) with 2147483648. cbn [andb].
    rewrite Z.mod_small by lia. destruct (2147483648 <=? v * 16) eqn:E; lia. }
  exists (16 * v). split; [exact S4|].
  enough (Q : (conv u8 (Z.lor (16 * v) w) =? 16 * v + w) = true) by now apply Z.eqb_eq.
  revert w W. apply nibble_all. revert v V S4.
  intros v V _. revert v V.
  intros v V. enough (Q : forallb (fun w => conv u8 (Z.lor (16 * v) w) =? 16 * v + w) (map Z.of_nat (seq 0 16)) = true) by exact Q.
  revert v V. apply (nibble_all (fun v => forallb (fun w => conv u8 (Z.lor (16 * v) w) =? 16 * v + w) (map Z.of_nat (seq 0 16)))).
  vm_compute. reflexivity.
Qed.

(** ** The texts, one byte after the other *)
Definition sep (hy : bool) (n : nat) : list Z := if hy && ((n =? 4)%nat || dashed n) then [45] else [].
Fixpoint tail (hy : bool) (n : nat) (ds : list Z) : list Z :=
  match ds with
  | a :: b :: t => sep hy n ++ a :: b :: tail hy (S n) t
  | _ => []
  end.
Definition closing (ob : Z) : list Z := if ob =? 0 then [] else [125].

Lemma len32 {A} (ds : list A) : length ds = 32%nat -> exists a0 a1 a2 a3 a4 a5 a6 a7 a8 a9 a10 a11 a12 a13 a14 a15 a16 a17 a18 a19 a20 a21 a22 a23 a24 a25 a26 a27 a28 a29 a30 a31,
  ds = [a0; a1; a2; a3; a4; a5; a6; a7; a8; a9; a10; a11; a12; a13; a14; a15; a16; a17; a18; a19; a20; a21; a22; a23; a24; a25; a26; a27; a28; a29; a30; a31].
Proof.
  intros L. do 32 (destruct ds as [|? ds]; [discriminate L|]). destruct ds; [|discriminate L].
  repeat eexists.
Qed.
Lemma tail_grouped hy ds : length ds = 32%nat -> tail hy 0 ds = grouped hy ds.
Proof.
  intros L. apply len32 in L. repeat destruct L as (? & L). subst ds. destruct hy; reflexivity.
Qed.

Section Parse.
  Variable d : nat.
  Hypothesis D : (depth_bound 22 <= d)%nat.
  Variable s : list Z.
  Variable l : nat.
  Hypothesis L : (l <= length s)%nat.

  Notation suffix f := (slice s f l).

  Lemma make_next_ok f : (f <= l)%nat ->
    match suffix f with
    | [] => make_next s f l = Ok (Throw Text_ends)
    | c :: t => make_next s f l = Ok (Done (NC c (f + 1))) /\ (f + 1 <= l)%nat /\ suffix (f + 1) = t
    end.
  Proof.
    intros F. unfold make_next, slice. destruct (Nat.eqb_spec f l) as [->|N]; cbn [negb].
    - now rewrite Nat.sub_diag.
    - destruct (l - f)%nat as [|k] eqn:K; [lia|].
      destruct (nth_error s f) as [c|] eqn:E; [|apply nth_error_None in E; lia].
      destruct (nth_error_split s f E) as (l1 & l2 & -> & LEN).
      assert (SK : skipn f (l1 ++ c :: l2) = c :: l2) by (rewrite <- LEN, skipn_app, skipn_all, Nat.sub_diag; reflexivity).
      rewrite SK. cbn [firstn]. unfold rd. rewrite E. cbn [bind]. split; [reflexivity|]. split; [lia|].
      replace (l - (f + 1))%nat with k by lia. f_equal. rewrite <- LEN.
      rewrite skipn_app. replace (length l1 + 1 - length l1)%nat with 1%nat by lia.
      rewrite skipn_all2 by lia. reflexivity.
  Qed.

  (** the two digits of a byte: [two] of generate_2 *)
  Definition two (k : next_char -> Z -> res (parsed (list Z))) (nc : next_char) : res (parsed (list Z)) :=
    v <~ get_value d (nc_c nc) ;;
    nc2 <~ nc_next s l nc ;;
    w <~ get_value d (nc_c nc2) ;;
    v4 <- shl false i32 v 4 ;;
    k nc2 (conv u8 (Z.lor v4 w)).

  Lemma two_ok k nc : (nc_first nc <= l)%nat ->
    (exists b rest nc2, hex (nc_c nc) /\ hex b /\ suffix (nc_first nc) = b :: rest /\
       suffix (nc_first nc2) = rest /\ (nc_first nc2 <= l)%nat /\
       two k nc = k nc2 (16 * hexv (nc_c nc) + hexv b)) \/
    ((exists e, two k nc = Ok (Throw e)) /\
     forall b rest, suffix (nc_first nc) = b :: rest -> hex (nc_c nc) -> hex b -> False).
  Proof.
    intros F. unfold two. rewrite get_value_ok by exact D.
    destruct (hexval (nc_c nc)) as [v|] eqn:V.
    - cbn [pbind bind]. unfold nc_next. pose proof (make_next_ok _ F) as M.
      destruct (suffix (nc_first nc)) as [|b rest] eqn:SF.
      + right. rewrite M. cbn [pbind bind]. split; [eauto|]. intros ? ? [=].
      + destruct M as (M & F1 & S1). rewrite M. cbn [pbind bind]. cbn [nc_c nc_first]. rewrite get_value_ok by exact D.
        destruct (hexval b) as [w|] eqn:W.
        * left. cbn [pbind bind].
          destruct (two_digits v w (hexval_bound _ _ V) (hexval_bound _ _ W)) as (x & X1 & X2). rewrite X1. cbn [bind].
          rewrite X2. exists b, rest, (NC b (nc_first nc + 1)). cbn [nc_first].
          unfold hex, hexv. rewrite V, W. repeat split; try congruence; try assumption.
        * right. cbn [pbind bind]. split; [eauto|]. intros ? ? [= <- <-] _ H. now apply H.
    - right. cbn [pbind bind]. split; [eauto|]. intros ? ? _ H. exfalso. now apply H.
  Qed.

  Lemma generate_2_eq r nc ob hd args : generate_2 d s l (S r) nc ob hd args =
    let tw nc hd := two (fun nc2 x => generate_2 d s l r nc2 ob hd (args ++ [x])) nc in
    let n := length args in
    if (n =? 16)%nat then
      if ob =? 0 then Ok (Done args)
      else
        nc2 <~ nc_next s l nc ;;
        if is_close_brace2 (nc_c nc2) ob then Ok (Done args) else Ok (Throw Brace_open)
    else if (n =? 0)%nat then tw nc hd
    else
      nc1 <~ nc_next s l nc ;;
      if dashed n then
        if hd then
          if is_dash (nc_c nc1) then nc2 <~ nc_next s l nc1 ;; tw nc2 hd
          else Ok (Throw Dash_missing)
        else tw nc1 hd
      else if (n =? 4)%nat then
        if is_dash (nc_c nc1) then nc2 <~ nc_next s l nc1 ;; tw nc2 true
        else tw nc1 false
      else tw nc1 hd.
  Proof. reflexivity. Qed.

  (** what is accepted from byte [n] on, if the text to come is [xs] *)
  Definition accepts (ob : Z) (n k : nat) (hd : bool) (args xs u : list Z) : Prop :=
    exists hy ds rest, ((4 < n)%nat -> hy = hd) /\ length ds = (2 * k)%nat /\ Forall hex ds /\
      xs = tail hy n ds ++ closing ob ++ rest /\ u = args ++ pair_up ds.
  Definition decides (m : res (parsed (list Z))) (P : list Z -> Prop) : Prop :=
    exists x, m = Ok x /\ forall u, x = Done u <-> P u.

  Lemma decides_throw e (P : list Z -> Prop) : (forall u, ~ P u) -> decides (Ok (Throw e)) P.
  Proof. intros H. eexists. split; [reflexivity|]. intros u. split; [discriminate|]. intros X. now apply H in X. Qed.
  Lemma decides_iff m (P Q : list Z -> Prop) : (forall u, P u <-> Q u) -> decides m P -> decides m Q.
  Proof. intros H (x & E & X). exists x. split; [exact E|]. intros u. rewrite X. apply H. Qed.

  (** a byte whose first digit has been read, and the rest *)
  Lemma two_decides ob n k hd args r nc :
    (forall nc2 x, (nc_first nc2 <= l)%nat ->
      decides (generate_2 d s l r nc2 ob hd (args ++ [x])) (accepts ob (S n) k hd (args ++ [x]) (suffix (nc_first nc2)))) ->
    (nc_first nc <= l)%nat -> (4 <= n)%nat \/ True ->
    decides (two (fun nc2 x => generate_2 d s l r nc2 ob hd (args ++ [x])) nc)
      (fun u => exists hy a b ds rest, ((4 <= n)%nat -> hy = hd) /\ length ds = (2 * k)%nat /\ Forall hex (a :: b :: ds) /\
         nc_c nc :: suffix (nc_first nc) = a :: b :: tail hy (S n) ds ++ closing ob ++ rest /\
         u = args ++ pair_up (a :: b :: ds)).
  Proof.
    intros IH F _.
    destruct (two_ok (fun nc2 x => generate_2 d s l r nc2 ob hd (args ++ [x])) nc F)
      as [(b & rest & nc2 & HA & HB & SF & S2 & F2 & E)|((e & E) & NO)].
    - rewrite E. eapply decides_iff; [|apply (IH nc2 _ F2)]. intros u. rewrite S2, SF. split.
      + intros (hy & ds & rest' & HY & LD & FD & X & U). exists hy, (nc_c nc), b, ds, rest'.
        split; [intros; apply HY; lia|]. split; [exact LD|]. split; [now repeat constructor|].
        split; [now rewrite X|]. rewrite U, <- app_assoc. reflexivity.
      + intros (hy & a & b' & ds & rest' & HY & LD & FD & X & U). injection X as A B X. subst a b'.
        inversion_clear FD as [|? ? _ FD1]. inversion_clear FD1 as [|? ? _ FD2].
        exists hy, ds, rest'. split; [intros; apply HY; lia|]. split; [exact LD|]. split; [exact FD2|].
        split; [exact X|]. rewrite U. cbn [pair_up]. now rewrite <- app_assoc.
    - rewrite E. apply decides_throw. intros u (hy & a & b & ds & rest & _ & _ & FD & X & _). injection X as A X.
      inversion_clear FD as [|? ? HA FD1]. inversion_clear FD1 as [|? ? HB _]. subst a. eapply NO; eassumption.
  Qed.

  Lemma generate_2_ok ob : ob = 0 \/ ob = 123 -> forall k n r nc hd args,
    length args = n -> (n + k = 16)%nat -> (1 <= n)%nat -> (k < r)%nat -> (nc_first nc <= l)%nat ->
    decides (generate_2 d s l r nc ob hd args) (accepts ob n k hd args (suffix (nc_first nc))).
  Proof.
    intros OB. induction k as [|k IH]; intros n r nc hd args LA NK N1 R F;
      (destruct r as [|r]; [lia|]); rewrite generate_2_eq; cbv zeta; rewrite LA.
    - assert (n = 16%nat) by lia. replace (n =? 16)%nat with true by lia.
      unfold accepts, closing. destruct OB as [-> | ->].
      + change (0 =? 0) with true. cbv iota. eexists. split; [reflexivity|]. intros u. split.
        * intros [= <-]. exists hd, [], (suffix (nc_first nc)). repeat split; auto. cbn. now rewrite app_nil_r.
        * intros (hy & ds & rest & _ & LD & _ & _ & U). destruct ds; [|discriminate]. rewrite U. cbn. now rewrite app_nil_r.
      + change (123 =? 0) with false. cbv iota. unfold nc_next. pose proof (make_next_ok _ F) as M.
        destruct (suffix (nc_first nc)) as [|c t] eqn:SF.
        * rewrite M. cbn [pbind bind]. apply decides_throw. intros u (hy & ds & rest & _ & LD & _ & X & _).
          destruct ds; discriminate.
        * destruct M as (M & F1 & S1). rewrite M. cbn [pbind bind nc_c].
          unfold is_close_brace2, is_open_brace, is_close_brace, lbrace, rbrace. change (123 =? 123) with true. cbn [andb].
          destruct (Z.eqb_spec c 125) as [->|NE].
          { eexists. split; [reflexivity|]. intros u. split.
            - intros [= <-]. exists hd, [], t. repeat split; auto. cbn. now rewrite app_nil_r.
            - intros (hy & ds & rest & _ & LD & _ & _ & U). destruct ds; [|discriminate]. rewrite U. cbn. now rewrite app_nil_r. }
          { apply decides_throw. intros u (hy & ds & rest & _ & LD & _ & X & _).
            destruct ds; [|discriminate]. cbn in X. injection X as E _. contradiction. }
    - replace (n =? 16)%nat with false by lia. replace (n =? 0)%nat with false by lia.
      assert (IHS : forall hd nc2 x, (nc_first nc2 <= l)%nat ->
        decides (generate_2 d s l r nc2 ob hd (args ++ [x])) (accepts ob (S n) k hd (args ++ [x]) (suffix (nc_first nc2)))).
      { intros hd' nc2 x F2. apply IH; try lia; rewrite ?app_length; cbn; lia. }
      unfold nc_next at 1. pose proof (make_next_ok _ F) as M.
      assert (NONE : suffix (nc_first nc) = [] -> forall u, ~ accepts ob n (S k) hd args (suffix (nc_first nc)) u).
      { intros E u (hy & ds & rest & _ & LD & _ & X & _). rewrite E in X.
        destruct ds as [|a [|b ds]]; cbn in LD; try lia. cbn [tail] in X. destruct (sep hy n); discriminate. }
      destruct (suffix (nc_first nc)) as [|c t] eqn:SF.
      { rewrite M. cbn [pbind bind]. apply decides_throw. now apply NONE. }
      clear NONE. destruct M as (M & F1 & S1). rewrite M. cbn [pbind bind nc_c nc_first].
      set (nc1 := NC c (nc_first nc + 1)). assert (F1' : (nc_first nc1 <= l)%nat) by exact F1.
      (* the byte is read from [xs] with or without a separator before it *)
      assert (NOSEP : forall hd', (n <> 4 -> hd' = hd)%nat -> (n = 4%nat -> hd' = false) ->
                (n = 4%nat -> c <> 45) -> (hd' = true -> sep true n = []) ->
                decides (two (fun nc2 x => generate_2 d s l r nc2 ob hd' (args ++ [x])) nc1)
                  (accepts ob n (S k) hd args (c :: t))).
      { intros hd' H1 H2 H3 H4. eapply decides_iff; [|apply (two_decides ob n k hd' args r nc1 (IHS hd') F1' (or_intror I))].
        intros u. unfold nc1. cbn [nc_c nc_first]. rewrite S1. split.
        - intros (hy & a & b & ds & rest & HY & LD & FD & X & U). exists hy, (a :: b :: ds), rest.
          split. { intros N4. rewrite HY by lia. apply H1. lia. }
          split; [cbn; lia|]. split; [exact FD|]. split; [|exact U]. rewrite X. cbn [tail].
          replace (sep hy n) with (@nil Z); [reflexivity|].
          destruct (Nat.lt_ge_cases n 4) as [N4|N4].
          + unfold sep. replace ((n =? 4)%nat || dashed n) with false by (unfold dashed; lia). now rewrite andb_false_r.
          + rewrite HY by lia. destruct hd'; [symmetry; apply H4; reflexivity|reflexivity].
        - intros (hy & ds & rest & HY & LD & FD & X & U). destruct ds as [|a [|b ds]]; cbn in LD; try lia.
          cbn [tail] in X.
          assert (S0 : sep hy n = []).
          { destruct (Nat.lt_ge_cases n 4) as [N4|N4].
            - unfold sep. replace ((n =? 4)%nat || dashed n) with false by (unfold dashed; lia). now rewrite andb_false_r.
            - destruct (Nat.eq_dec n 4) as [E4|E4].
              + destruct hy; [|reflexivity]. exfalso. rewrite E4 in X. cbn in X. injection X as E _. now apply H3.
              + rewrite HY by lia. rewrite <- H1 by exact E4. destruct hd'; [apply H4; reflexivity|reflexivity]. }
          rewrite S0 in X. cbn [app] in X. injection X as EA EB.
          exists hy, a, b, ds, rest. split.
          { intros N4. destruct (Nat.eq_dec n 4) as [E4|E4].
            - rewrite H2 by exact E4. destruct hy; [|reflexivity]. rewrite E4 in S0. discriminate.
            - rewrite H1 by exact E4. apply HY. lia. }
          split; [lia|]. split; [exact FD|]. split; [|exact U]. now rewrite EA, EB. }
      assert (SEP : sep true n = [45] -> (n <> 4%nat -> hd = true) -> c = 45 ->
                decides (nc2 <~ nc_next s l nc1 ;; two (fun nc3 x => generate_2 d s l r nc3 ob true (args ++ [x])) nc2)
                  (accepts ob n (S k) hd args (c :: t))).
      { intros SE H1 ->. unfold nc_next at 1. pose proof (make_next_ok _ F1) as M2. rewrite S1 in M2.
        assert (HYT : forall hy a b ds rest, Forall hex (a :: b :: ds) -> ((4 < n)%nat -> hy = hd) ->
          45 :: t = tail hy n (a :: b :: ds) ++ closing ob ++ rest -> hy = true /\ t = a :: b :: tail hy (S n) ds ++ closing ob ++ rest).
        { intros hy a b ds rest FD HY X. cbn [tail] in X. destruct hy.
          - rewrite SE in X. cbn [app] in X. injection X as ->. split; reflexivity.
          - cbn [sep andb app] in X. injection X as EA _. inversion_clear FD as [|? ? HA _]. subst a. now apply hex_dash in HA. }
        assert (N4 : (4 <= n)%nat). { unfold sep, dashed in SE. cbn [andb] in SE. destruct ((n =? 4)%nat || _) eqn:E in SE; [lia|discriminate]. }
        destruct t as [|c2 t2] eqn:ET.
        - change (nc_first nc1) with (nc_first nc + 1)%nat. rewrite M2. cbn [pbind bind]. apply decides_throw.
          intros u (hy & ds & rest & HY & LD & FD & X & _). destruct ds as [|a [|b ds]]; cbn in LD; try lia.
          apply HYT in X; [|assumption|assumption]. destruct X as (_ & X). discriminate.
        - destruct M2 as (M2 & F2 & S2). change (nc_first nc1) with (nc_first nc + 1)%nat. rewrite M2. cbn [pbind bind].
          eapply decides_iff; [|apply (two_decides ob n k true args r (NC c2 (nc_first nc + 1 + 1)) (IHS true) F2 (or_intror I))].
          intros u. cbn [nc_c nc_first]. rewrite S2. split.
          + intros (hy & a & b & ds & rest & HY & LD & FD & X & U). exists hy, (a :: b :: ds), rest. rewrite (HY N4) in *.
            split; [intros; symmetry; apply H1; lia|]. split; [cbn; lia|]. split; [exact FD|]. split; [|exact U].
            cbn [tail]. rewrite SE. cbn [app]. now rewrite X.
          + intros (hy & ds & rest & HY & LD & FD & X & U). destruct ds as [|a [|b ds]]; cbn in LD; try lia.
            apply HYT in X; [|assumption|assumption]. destruct X as (-> & X).
            exists true, a, b, ds, rest. split; [reflexivity|]. split; [lia|]. split; [exact FD|]. split; [exact X|exact U]. }
      unfold is_dash, dash. cbn [nc_c nc1].
      destruct (dashed n) eqn:DN.
      + destruct hd.
        * destruct (Z.eqb_spec c 45) as [EC|NE].
          { apply SEP; [|reflexivity|exact EC]. unfold sep. rewrite DN, orb_true_r. reflexivity. }
          { apply decides_throw. intros u (hy & ds & rest & HY & LD & FD & X & _). destruct ds as [|a [|b ds]]; cbn in LD; try lia.
            cbn [tail] in X. rewrite HY in X by (unfold dashed in DN; lia). unfold sep in X. rewrite DN, orb_true_r in X.
            cbn [andb app] in X. injection X as E _. contradiction. }
        * apply NOSEP; try reflexivity; try discriminate; unfold dashed in DN; lia.
      + destruct (n =? 4)%nat eqn:E4.
        * destruct (Z.eqb_spec c 45) as [EC|NE].
          { apply SEP; [|lia|exact EC]. unfold sep. rewrite E4. reflexivity. }
          { apply NOSEP; try reflexivity; try discriminate; try lia. }
        * apply NOSEP; try reflexivity; try lia. unfold sep. rewrite E4, DN. reflexivity.
  Qed.

  Lemma generate_2_start ob nc : ob = 0 \/ ob = 123 -> (nc_first nc <= l)%nat ->
    decides (generate_2 d s l 17 nc ob false [])
      (fun u => exists hy ds rest, length ds = 32%nat /\ Forall hex ds /\
         nc_c nc :: suffix (nc_first nc) = grouped hy ds ++ closing ob ++ rest /\ u = pair_up ds).
  Proof.
    intros OB F. rewrite generate_2_eq. cbv zeta. cbn [length Nat.eqb].
    eapply decides_iff; [|apply (two_decides ob 0 15 false [] 16 nc)]; [| |exact F|now right].
    - intros u. split.
      + intros (hy & a & b & ds & rest & _ & LD & FD & X & U). exists hy, (a :: b :: ds), rest.
        assert (L32 : length (a :: b :: ds) = 32%nat) by (cbn; lia).
        split; [exact L32|]. split; [exact FD|]. split; [|exact U]. rewrite X, <- tail_grouped by exact L32. cbn [tail].
        unfold sep, dashed. cbn [Nat.eqb orb]. rewrite andb_false_r. reflexivity.
      + intros (hy & ds & rest & LD & FD & X & U). rewrite <- tail_grouped in X by exact LD.
        destruct ds as [|a [|b ds]]; try discriminate LD. cbn [tail] in X.
        unfold sep, dashed in X. cbn [Nat.eqb orb] in X. rewrite andb_false_r in X. cbn [app] in X.
        exists hy, a, b, ds, rest. split; [lia|]. split; [cbn in LD; lia|]. split; [exact FD|]. split; [exact X|exact U].
    - intros nc2 x F2. apply (generate_2_ok ob OB 15 1 16 nc2 false [x]); try lia. reflexivity.
  Qed.

  Lemma grouped_head hy ds : length ds = 32%nat -> exists a t, grouped hy ds = a :: t /\ In a ds.
  Proof.
    intros LD. rewrite <- tail_grouped by exact LD. destruct ds as [|a [|b ds]]; try discriminate LD.
    exists a, (b :: tail hy 1 ds). split; [|now left]. cbn [tail]. unfold sep, dashed. cbn [Nat.eqb orb]. rewrite andb_false_r. reflexivity.
  Qed.

  Lemma make_uuid_ok f : (f <= l)%nat ->
    decides (make_uuid d s f l) (fun u => exists t rest, suffix f = t ++ rest /\ denotes t u).
  Proof.
    intros F. unfold make_uuid. pose proof (make_next_ok _ F) as M.
    destruct (suffix f) as [|c t] eqn:SF.
    - rewrite M. cbn [pbind bind]. apply decides_throw. intros u (t & rest & X & (br & hy & ds & LD & _ & T & _)).
      symmetry in X. apply app_eq_nil in X. destruct X as (X & _). subst t. destruct (grouped_head hy ds LD) as (a & t' & E & _).
      destruct br; [discriminate|]. cbn in T. rewrite E in T. discriminate.
    - destruct M as (M & F1 & S1). rewrite M. cbn [pbind bind]. unfold generate_1, is_open_brace, lbrace. cbn [nc_c].
      destruct (Z.eqb_spec c 123) as [->|NE].
      + unfold nc_next. cbn [nc_first]. pose proof (make_next_ok _ F1) as M2. rewrite S1 in M2.
        assert (BR : forall u, (exists t0 rest, 123 :: t = t0 ++ rest /\ denotes t0 u) <->
            exists hy ds rest, length ds = 32%nat /\ Forall hex ds /\ t = grouped hy ds ++ [125] ++ rest /\ u = pair_up ds).
        { intros u. split.
          - intros (t0 & rest & X & (br & hy & ds & LD & FD & T & U)). destruct br.
            + exists hy, ds, rest. subst t0. cbn [braced app] in X. injection X as X.
              repeat split; try assumption. rewrite X, <- app_assoc. reflexivity.
            + cbn in T. destruct (grouped_head hy ds LD) as (a & t' & E & I). subst t0. rewrite E in X. injection X as A _. subst a.
              rewrite Forall_forall in FD. now apply FD, hex_lbrace in I.
          - intros (hy & ds & rest & LD & FD & X & U). exists (123 :: grouped hy ds ++ [125]), rest. split.
            + rewrite X. cbn [app]. f_equal. rewrite <- app_assoc. reflexivity.
            + exists true, hy, ds. repeat split; assumption. }
        destruct t as [|c2 t2].
        * rewrite M2. cbn [pbind bind]. apply decides_throw. intros u X. apply BR in X.
          destruct X as (hy & ds & rest & LD & _ & X & _). destruct (grouped_head hy ds LD) as (a & t' & E & _). rewrite E in X. discriminate.
        * destruct M2 as (M2 & F2 & S2). rewrite M2. cbn [pbind bind].
          eapply decides_iff; [|apply (generate_2_start 123); [now right|exact F2]].
          intros u. cbn [nc_c nc_first]. rewrite S2. symmetry. rewrite BR. reflexivity.
      + eapply decides_iff; [|apply (generate_2_start 0); [now left|exact F1]].
        intros u. cbn [nc_c nc_first]. rewrite S1. split.
        * intros (hy & ds & rest & LD & FD & X & U). exists (grouped hy ds), rest. split; [exact X|].
          exists false, hy, ds. repeat split; assumption.
        * intros (t0 & rest & X & (br & hy & ds & LD & FD & T & U)). subst t0. destruct br.
          { cbn in X. injection X as E _. contradiction. }
          { exists hy, ds, rest. repeat split; assumption. }
  Qed.
End Parse.

Lemma make_uuid_lemma d s first last : valid s first last -> (depth_bound 22 <= d)%nat ->
  exists x, make_uuid d s first last = Ok x /\
    forall u, x = Done u <-> exists t rest, slice s first last = t ++ rest /\ denotes t u.
Proof. intros (F & L) D. apply make_uuid_ok; assumption. Qed.

(** ** Printing *)
Lemma digit_ok v : 0 <= v < 16 -> rd digits (Z.to_nat v) = Ok (lower_digit v).
Proof.
  intros V. assert (C : (v < 0 \/ v = 0 \/ v = 1 \/ v = 2 \/ v = 3 \/ v = 4 \/ v = 5 \/ v = 6 \/ v = 7 \/ v = 8 \/ v = 9 \/ v = 10 \/ v = 11 \/ v = 12 \/ v = 13 \/ v = 14 \/ v = 15)) by lia.
  repeat (destruct C as [C|C]; [try lia; subst v; reflexivity|]). subst v. reflexivity.
Qed.
Lemma hexv_lower v : 0 <= v < 16 -> hexval (lower_digit v) = Some v.
Proof.
  intros V. assert (C : (v < 0 \/ v = 0 \/ v = 1 \/ v = 2 \/ v = 3 \/ v = 4 \/ v = 5 \/ v = 6 \/ v = 7 \/ v = 8 \/ v = 9 \/ v = 10 \/ v = 11 \/ v = 12 \/ v = 13 \/ v = 14 \/ v = 15)) by lia.
  repeat (destruct C as [C|C]; [try lia; subst v; reflexivity|]). subst v. reflexivity.
Qed.
Lemma hi_digit_ok u i b : nth_error u i = Some b -> is_byte b -> hi_digit u i = Ok (lower_digit (b / 16)).
Proof.
  intros N B. unfold hi_digit, rd at 1. rewrite N. cbn [bind]. unfold shr. change ((0 <=? 4) && (4 <? wid i32)) with true. cbv iota. cbn [bind].
  assert (E : Z.land (Z.shiftr b 4) 15 = b / 16).
  { apply Z.eqb_eq. revert b B N. intros b B _. revert b B. apply byte_all. vm_compute. reflexivity. }
  rewrite E. apply digit_ok. unfold is_byte in B. change (2 ^ 8) with 256 in B. split; [apply Z.div_pos; lia|apply Z.div_lt_upper_bound; lia].
Qed.
Lemma lo_digit_ok u i b : nth_error u i = Some b -> is_byte b -> lo_digit u i = Ok (lower_digit (b mod 16)).
Proof.
  intros N B. unfold lo_digit, rd at 1. rewrite N. cbn [bind].
  assert (E : Z.land b 15 = b mod 16).
  { apply Z.eqb_eq. revert b B N. intros b B _. revert b B. apply byte_all. vm_compute. reflexivity. }
  rewrite E. apply digit_ok. apply Z.mod_pos_bound. lia.
Qed.

Lemma len16 {A} (ds : list A) : length ds = 16%nat -> exists a0 a1 a2 a3 a4 a5 a6 a7 a8 a9 a10 a11 a12 a13 a14 a15,
  ds = [a0; a1; a2; a3; a4; a5; a6; a7; a8; a9; a10; a11; a12; a13; a14; a15].
Proof.
  intros L. do 16 (destruct ds as [|? ds]; [discriminate L|]). destruct ds; [|discriminate L].
  repeat eexists.
Qed.

Lemma to_string_lemma u : is_uuid u -> uuid_to_string u = Ok (image 36 (canonical u), 36%nat).
Proof.
  intros (L & B).
  assert (H : forall i, (i < 16)%nat -> exists b, nth_error u i = Some b /\ is_byte b).
  { intros i I. destruct (nth_error u i) as [b|] eqn:E; [|apply nth_error_None in E; lia]. exists b. split; [reflexivity|].
    rewrite Forall_forall in B. apply B. eapply nth_error_In. exact E. }
  assert (C36 : length (canonical u) = 36%nat).
  { apply len16 in L. repeat destruct L as (? & L). subst u. reflexivity. }
  unfold uuid_to_string. rewrite (raw_construct_lemma 36 36 36 _ (canonical u) C36); [now rewrite C36|lia|lia|].
  assert (A : to_string_args u = map Ok (canonical u)).
  { unfold to_string_args.
    rewrite !(fun i b => hi_digit_ok u i b) with (b := nth 0 u 0) (i := 0%nat) by (destruct (H 0%nat ltac:(lia)) as (b & E & X); rewrite (nth_error_nth _ _ 0 E) in *; assumption).
    clear - H L.
    assert (HH : forall i, (i < 16)%nat -> hi_digit u i = Ok (lower_digit (nth i u 0 / 16)) /\ lo_digit u i = Ok (lower_digit (nth i u 0 mod 16))).
    { intros i I. destruct (H i I) as (b & E & X). rewrite (nth_error_nth _ _ 0 E). split; [now apply hi_digit_ok|now apply lo_digit_ok]. }
    clear H.
    repeat match goal with |- context [hi_digit u ?i] => rewrite (proj1 (HH i ltac:(lia))) end.
    repeat match goal with |- context [lo_digit u ?i] => rewrite (proj2 (HH i ltac:(lia))) end.
    apply len16 in L. repeat destruct L as (? & L). subst u. reflexivity. }
  intros i I. rewrite A. exists (nth i (canonical u) 0). split; [|reflexivity].
  rewrite (nth_indep _ UB (Ok 0)) by (rewrite map_length; lia). now rewrite map_nth.
Qed.

Lemma pair_up_digits u : Forall is_byte u ->
  pair_up (flat_map (fun b => [lower_digit (b / 16); lower_digit (b mod 16)]) u) = u /\
  Forall hex (flat_map (fun b => [lower_digit (b / 16); lower_digit (b mod 16)]) u).
Proof.
  induction 1 as [|b u B _ (IH & FH)]; [split; [reflexivity|constructor]|]. cbn [flat_map app pair_up].
  assert (B16 : 0 <= b / 16 < 16). { unfold is_byte in B. change (2 ^ 8) with 256 in B. split; [apply Z.div_pos; lia|apply Z.div_lt_upper_bound; lia]. }
  assert (M16 : 0 <= b mod 16 < 16) by (apply Z.mod_pos_bound; lia). split.
  - rewrite IH. f_equal. unfold hexv. rewrite !hexv_lower by assumption. pose proof (Z.div_mod b 16 ltac:(lia)). lia.
  - repeat constructor; [..|exact FH]; unfold hex; rewrite hexv_lower by assumption; discriminate.
Qed.
Lemma canonical_denotes u : is_uuid u -> denotes (canonical u) u.
Proof.
  intros (L & B). destruct (pair_up_digits u B) as (P & H). exists false, true, (flat_map (fun b => [lower_digit (b / 16); lower_digit (b mod 16)]) u).
  split; [|split; [exact H|split; [reflexivity|now rewrite P]]].
  apply len16 in L. repeat destruct L as (? & L). subst u. reflexivity.
Qed.

Lemma round_trip_lemma d u : is_uuid u -> (depth_bound 22 <= d)%nat ->
  exists s n, uuid_to_string u = Ok (s, n) /\ make_uuid d s 0 n = Ok (Done u).
Proof.
  intros U D. exists (image 36 (canonical u)), 36%nat. split; [now apply to_string_lemma|].
  assert (C36 : length (canonical u) = 36%nat).
  { destruct U as (L & _). apply len16 in L. repeat destruct L as (? & L). subst u. reflexivity. }
  destruct (make_uuid_lemma d (image 36 (canonical u)) 0 36) as (x & E & X); [|exact D|].
  { split; [lia|]. unfold image. rewrite app_length, C36. lia. }
  rewrite E. f_equal. apply X. exists (canonical u), []. split; [|now apply canonical_denotes].
  unfold slice, image. rewrite app_nil_r, Nat.sub_0_r. generalize (repeat 0 (36 + 1 - length (canonical u))). intros z.
  change (skipn 0 (canonical u ++ z)) with (canonical u ++ z). rewrite <- C36. rewrite firstn_app, Nat.sub_diag, firstn_all. apply app_nil_r.
Qed.

Lemma denotes_length t u : denotes t u -> length t = 32%nat \/ length t = 34%nat \/ length t = 36%nat \/ length t = 38%nat.
Proof.
  intros (br & hy & ds & L & _ & T & _). apply len32 in L. repeat destruct L as (? & L). subst ds t.
  destruct br, hy; cbn; auto.
Qed.
Lemma denotes_uuid t u : denotes t u -> is_uuid u.
Proof.
  intros (br & hy & ds & L & F & _ & U). subst u.
  assert (G : forall n ds, length ds = (2 * n)%nat -> length (pair_up ds) = n /\ Forall is_byte (pair_up ds)).
  { clear. induction n as [|n IH]; intros ds L.
    - destruct ds; [split; [reflexivity|constructor]|discriminate].
    - destruct ds as [|a [|b ds]]; cbn in L; try lia. destruct (IH ds ltac:(lia)) as (I1 & I2). cbn [pair_up length]. split; [lia|].
      constructor; [|exact I2]. unfold is_byte. pose proof (hexv_bound a). pose proof (hexv_bound b). change (2 ^ 8) with 256. lia. }
  apply (G 16%nat). exact L.
Qed.

(** [{] and the 33 digits: what stands behind the text is not looked at *)
Lemma make_uuid_trailing : exists s u, make_uuid 12 s 0 (length s) = Ok (Done u) /\ forall v, ~ denotes s v.
Proof.
  exists (repeat 48 33), (repeat 0 16). split; [vm_compute; reflexivity|].
  intros v H. apply denotes_length in H. rewrite repeat_length in H. lia.
Qed.
