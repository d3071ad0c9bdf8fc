(** Proofs about numbers in sequence. *)
From Coq Require Import List Arith Bool ZArith Lia.
From Coq Require Import ZifyBool ZifyNat.
From Verif Require Import Base DrawModel DrawSpec.
Import ListNotations.
Local Open Scope nat_scope.

Section Draw.
  Context {G A : Type}.
  Variable call : G -> A * G.

  Lemma after_snd n g : after call n (snd (call g)) = after call (S n) g.
  Proof.
    induction n as [|n IH]; [reflexivity|]. change (snd (call (after call n (snd (call g)))) = snd (call (after call (S n) g))). now rewrite IH.
  Qed.
  Lemma after_add n m g : after call m (after call n g) = after call (n + m) g.
  Proof.
    rewrite Nat.add_comm. induction m as [|m IH]; [reflexivity|].
    change (snd (call (after call m (after call n g))) = snd (call (after call (m + n) g))). now rewrite IH.
  Qed.
  Lemma draws_S n g : draws call (S n) g = drawn call 0 g :: draws call n (snd (call g)).
  Proof.
    unfold draws. cbn [seq map]. f_equal. rewrite <- seq_shift, map_map. apply map_ext. intros i. unfold drawn. now rewrite after_snd.
  Qed.
  Lemma draws_add n m g : draws call (n + m) g = draws call n g ++ draws call m (after call n g).
  Proof.
    revert g. induction n as [|n IH]; intros g; [reflexivity|]. cbn [Nat.add]. rewrite !draws_S, IH. cbn [app]. now rewrite after_snd.
  Qed.

  Lemma array_impl_lemma d N : forall g args, length args < N -> N - length args <= d ->
    generate_array_impl call d N (invoke call g) args = Ok (args ++ draws call (N - length args) g, after call (N - length args) g).
  Proof.
    induction d as [|d IH]; intros g args H D; [lia|]. cbn [generate_array_impl].
    destruct (length args + 1 =? N) eqn:E.
    - apply Nat.eqb_eq in E. replace (N - length args) with 1 by lia. reflexivity.
    - apply Nat.eqb_neq in E. replace (length args + 1 <? N) with true by (symmetry; apply Nat.ltb_lt; lia).
      cbn [invoke generator_ result_]. rewrite IH by (rewrite app_length; cbn [length]; lia).
      rewrite app_length. cbn [length]. replace (N - length args) with (S (N - (length args + 1))) by lia.
      rewrite draws_S, <- app_assoc, after_snd. reflexivity.
  Qed.
  Lemma generate_array_lemma d N g : 1 <= N -> N <= d -> generate_array call d N g = Ok (draws call N g, after call N g).
  Proof. intros H D. unfold generate_array. rewrite array_impl_lemma by (cbn [length]; lia). cbn [length app]. now rewrite Nat.sub_0_r. Qed.

  Lemma wr_at (l r : list A) x y : wr (l ++ x :: r) (length l) y = Ok (l ++ y :: r).
  Proof.
    unfold wr. rewrite app_length. cbn [length]. replace (length l <? length l + S (length r)) with true by (symmetry; apply Nat.ltb_lt; lia).
    f_equal. induction l as [|z l IH]; cbn [app length upd]; [reflexivity|now rewrite IH].
  Qed.
  Lemma loop_lemma k N value : forall l g, length l <= N -> N - length l < k ->
    generate_loop call k N (length l) (l ++ repeat value (N - length l)) g =
      Ok (l ++ draws call (N - length l) g, after call (N - length l) g).
  Proof.
    induction k as [|k IH]; intros l g H D; [lia|]. cbn [generate_loop].
    destruct (length l =? N) eqn:E; cbn [negb].
    - apply Nat.eqb_eq in E. replace (N - length l) with 0 by lia. reflexivity.
    - apply Nat.eqb_neq in E. replace (N - length l) with (S (N - S (length l))) by lia. cbn [repeat]. rewrite wr_at. cbn [bind].
      specialize (IH (l ++ [result_ (invoke call g)]) (generator_ (invoke call g))). rewrite app_length in IH. cbn [length] in IH.
      rewrite <- !app_assoc, Nat.add_1_r in IH. cbn [app] in IH. rewrite Nat.add_1_r, IH by lia.
      rewrite draws_S. cbn [invoke generator_ result_]. rewrite after_snd. reflexivity.
  Qed.
  Lemma generate_array_mut_lemma k N value g : N < k -> generate_array_mut call k N value g = Ok (draws call N g, after call N g).
  Proof.
    intros D. unfold generate_array_mut. pose proof (loop_lemma k N value [] g) as H. cbn [length app] in H. rewrite Nat.sub_0_r in H.
    apply H; lia.
  Qed.
  Lemma array_split_lemma d N M g : 1 <= N -> 1 <= M -> N + M <= d -> exists l g' l',
    generate_array call d N g = Ok (l, g') /\ (exists g'', generate_array call d M g' = Ok (l', g'') /\
      generate_array call d (N + M) g = Ok (l ++ l', g'')).
  Proof.
    intros HN HM D. exists (draws call N g), (after call N g), (draws call M (after call N g)).
    split; [apply generate_array_lemma; lia|]. exists (after call M (after call N g)). split; [apply generate_array_lemma; lia|].
    rewrite generate_array_lemma by lia. now rewrite draws_add, after_add.
  Qed.

  Lemma traverse_lemma a0 g0 n : forall k g c, n < k -> c = Z.of_nat n ->
    traverse call k (GI (invoke call g) c) (random_end a0 g0) = Ok (draws call n g).
  Proof.
    induction n as [|n IH]; intros k g c K C; (destruct k as [|k]; [lia|]); cbn [traverse]; unfold gi_eq, random_end; cbn [index_]; subst c.
    - reflexivity.
    - replace (Z.of_nat (S n) =? 0)%Z with false by lia. cbn [negb]. unfold gi_next. cbn [gen_ index_ invoke generator_].
      change (GI (RR a0 g0) 0%Z) with (random_end (A := A) a0 g0).
      change (RR (fst (call (snd (call g)))) (snd (call (snd (call g))))) with (invoke call (snd (call g))).
      rewrite IH by lia. cbn [bind]. now rewrite draws_S.
  Qed.
  Lemma range_lemma a0 g0 top n k g : n < k ->
    traverse call k (random_begin call top g (Z.of_nat n)) (random_end a0 g0) = Ok (draws call n g) /\
    gi_minus (random_end a0 g0) (random_begin call top g (Z.of_nat n)) = Z.of_nat n /\
    (gi_lt (random_begin call top g (Z.of_nat n)) (random_end a0 g0) = true <-> n <> 0).
  Proof.
    intros K. unfold random_begin. replace (0 <=? Z.of_nat n)%Z with true by lia. split; [|split].
    - now apply traverse_lemma.
    - unfold gi_minus, random_end. cbn [index_]. lia.
    - unfold gi_lt, random_end. cbn [index_]. lia.
  Qed.
  Lemma endless_lemma a0 g0 n : forall top g it, it = Nat.iter n (gi_next call) (random_begin call top g (-1)) -> (Z.of_nat n < top)%Z ->
    gi_deref it = drawn call n g /\ gi_eq it (random_end a0 g0) = false.
  Proof.
    intros top g it -> T.
    assert (E : Nat.iter n (gi_next call) (random_begin call top g (-1)) = GI (invoke call (after call n g)) (top - Z.of_nat n)%Z).
    { clear T. unfold random_begin. cbn [Z.leb Z.compare]. induction n as [|n IH].
      - change (GI (invoke call g) top = GI (invoke call g) (top - Z.of_nat 0)%Z). f_equal. lia.
      - change (gi_next call (Nat.iter n (gi_next call) (GI (invoke call g) top)) = GI (invoke call (after call (S n) g)) (top - Z.of_nat (S n))%Z).
        rewrite IH. unfold gi_next. cbn [gen_ generator_ invoke index_]. f_equal. lia. }
    rewrite E. split; [reflexivity|]. unfold gi_eq, random_end. cbn [index_]. lia.
  Qed.
End Draw.

(** * bernoulli_distribution *)
Local Open Scope Z_scope.
Lemma filter_prefix (f : Z -> bool) lo c : forall n, (forall i, 0 <= i < Z.of_nat n -> f (lo + i) = (i <? c)) ->
  Z.of_nat (length (filter f (map (fun i => lo + Z.of_nat i) (seq 0 n)))) = Z.max 0 (Z.min c (Z.of_nat n)).
Proof.
  induction n as [|n IH]; intros H; [cbn; lia|]. rewrite seq_S, map_app, filter_app, app_length. cbn [map filter Nat.add].
  rewrite Nat2Z.inj_add, IH by (intros i Hi; apply H; lia). rewrite (H (Z.of_nat n)) by lia.
  destruct (Z.ltb_spec (Z.of_nat n) c); cbn [length]; lia.
Qed.
Lemma how_many_lemma lo hi a b : lo <= hi -> 0 < b -> 0 <= a <= b -> how_many (accepts lo hi a b) lo hi = a * (hi - lo) / b + 1.
Proof.
  intros H B [Ha Hb]. unfold how_many.
  assert (D : 0 <= a * (hi - lo) / b <= hi - lo).
  { split; [apply Z.div_pos; nia|]. apply Z.div_le_upper_bound; nia. }
  rewrite filter_prefix with (c := a * (hi - lo) / b + 1).
  - lia.
  - intros i Hi. unfold accepts. pose proof (Z.div_mod (a * (hi - lo)) b ltac:(lia)) as E. pose proof (Z.mod_pos_bound (a * (hi - lo)) b B).
    set (q := a * (hi - lo) / b) in *. replace (lo + i - lo) with i by lia.
    destruct (Z.ltb_spec i (q + 1)); [apply Z.leb_le|apply Z.leb_gt]; nia.
Qed.

Lemma bernoulli_share_lemma lo hi a b : lo <= hi -> 0 < b -> 0 < a <= b ->
  exists f, - b < how_many f lo hi * b - a * (hi - lo + 1) < b /\
    forall (G : Type) (call : G -> Z * G) g, bernoulli call lo hi a b g = (f (fst (call g)), snd (call g)).
Proof.
  intros H B Ha. exists (accepts lo hi a b). split.
  - rewrite how_many_lemma by lia.
    pose proof (Z.div_mod (a * (hi - lo)) b ltac:(lia)). pose proof (Z.mod_pos_bound (a * (hi - lo)) b B). nia.
  - intros G call g. unfold bernoulli. now replace (a =? 0) with false by lia.
Qed.

Section Bernoulli.
  Context {G : Type}.
  Variable call : G -> Z * G.
  Variables (lo hi : Z).

  Lemma bernoulli_ends_lemma b g : 0 < b -> lo <= fst (call g) <= hi ->
    fst (bernoulli call lo hi 0 b g) = false /\ fst (bernoulli call lo hi b b g) = true.
  Proof.
    intros B R. unfold bernoulli, accepts. cbn [Z.eqb fst]. split; [reflexivity|]. replace (b =? 0) with false by lia. cbn [fst]. apply Z.leb_le. nia.
  Qed.
  Lemma bernoulli_mono_lemma a a' b g : 0 < b -> 0 <= a <= a' -> lo <= fst (call g) <= hi ->
    fst (bernoulli call lo hi a b g) = true -> fst (bernoulli call lo hi a' b g) = true.
  Proof.
    intros B Ha R. unfold bernoulli, accepts. destruct (Z.eqb_spec a 0), (Z.eqb_spec a' 0); cbn [fst]; try discriminate; try lia.
    rewrite !Z.leb_le. nia.
  Qed.
End Bernoulli.
