From Coq Require Import List Arith ZArith Bool Lia Znumtheory.
From Coq Require Import ZifyBool ZifyNat.
From Verif Require Import Base BitModel BitSpec BitProof ShaModel ShaProof LcgSpec MtModel MtSpec MtProof.
Import ListNotations.
Open Scope Z_scope.

Section Mt.
  Variable P : mtp.
  Hypothesis V : mt_valid P.
  Notation t := (mt P).
  Notation w := (mw P).
  Notation n := (mn P).
  Notation m := (mm P).
  Notation r := (mr P).
  Notation W := (wid (mt P)).
  Notation word x := (0 <= x < 2 ^ mw P).

  Lemma div_word x s : 0 <= s -> word x -> word (x / 2 ^ s).
  Proof.
    intros S Hx. pose proof (pow_pos s S). split; [apply Z.div_pos; lia|]. apply Z.le_lt_trans with x; [|lia].
    apply Z.div_le_upper_bound; [lia|]. nia.
  Qed.
  Lemma temper_ok z : word z -> mt_temper P z = Ok (temper P z) /\ word (temper P z).
  Proof.
    intros Hz. pose proof (vw P V) as (A & _). pose proof (va P V) as (_ & D & B & C & _).
    pose proof V as (_ & _ & _ & _ & _ & U & S & T & L & _). unfold mt_temper, temper.
    rewrite (sr P) by exact U. cbn [bind]. set (z1 := Z.lxor z _).
    assert (H1 : word z1). { apply lxor_lt; [lia|exact Hz|]. apply land_lt; [lia|apply (div_word z); [lia|exact Hz]|exact D]. }
    rewrite (sl P V) by exact S. cbn [bind]. rewrite (land_mod_wide _ (mb P) w W) by (lia || exact B). set (z2 := Z.lxor z1 _).
    assert (H2 : word z2). { apply lxor_lt; [lia|exact H1|]. apply land_lt; [lia|apply Z.mod_pos_bound, pow_pos; lia|exact B]. }
    rewrite (sl P V) by exact T. cbn [bind]. rewrite (land_mod_wide _ (mc P) w W) by (lia || exact C). set (z3 := Z.lxor z2 _).
    assert (H3 : word z3). { apply lxor_lt; [lia|exact H2|]. apply land_lt; [lia|apply Z.mod_pos_bound, pow_pos; lia|exact C]. }
    rewrite (sr P) by exact L. cbn [bind]. split; [reflexivity|]. apply lxor_lt; [lia|exact H3|]. apply div_word; [lia|exact H3].
  Qed.

  Lemma seed_next_ok i x : (i < n)%nat -> Z.of_nat n <= 2 ^ 63 -> word x ->
    seed_next P i x = Ok ((mf P * Z.lxor x (x / 2 ^ (w - 2)) + Z.of_nat i) mod 2 ^ w).
  Proof.
    intros I N Hx. pose proof (vw P V) as (A & _ & _ & W64 & _). unfold seed_next. rewrite (sr P) by lia. cbn [bind]. rewrite (ar P V). cbn [bind].
    set (y := mf P * _). unfold arith. cbn [u64 sgn bind]. change (conv u64) with (fun z => z mod 2 ^ 64). cbv beta. unfold mt_max.
    rewrite land_low by lia. rewrite (cv P V). f_equal.
    assert (D : forall z k, w <= k -> (z mod 2 ^ k) mod 2 ^ w = z mod 2 ^ w).
    { intros z k Hk. symmetry. apply Zmod_div_mod; try (apply pow_pos; lia). exists (2 ^ (k - w)). rewrite <- Z.pow_add_r by lia. f_equal. lia. }
    rewrite D by lia. rewrite <- (Z.add_mod_idemp_l (y mod 2 ^ W)), D, Z.add_mod_idemp_l by (try lia; pose proof (w0 P V); lia).
    apply Z.mod_small. pose proof (Z.mod_pos_bound (y + Z.of_nat i) (2 ^ w) (w0 P V)). pose proof (wW P V). lia.
  Qed.
  Lemma init_1_ok : forall k i x, (i + k <= n)%nat -> Z.of_nat n <= 2 ^ 63 -> word x ->
    init_seed_1 P k i x = Ok (seed_words P k (Z.of_nat i) x) /\ length (seed_words P k (Z.of_nat i) x) = S k /\ Forall (fun x => word x) (seed_words P k (Z.of_nat i) x).
  Proof.
    induction k as [|k IH]; intros i x I N Hx; cbn [init_seed_1 seed_words].
    - split; [reflexivity|]. split; [reflexivity|]. constructor; [exact Hx|constructor].
    - rewrite seed_next_ok by (lia || assumption). cbn [bind]. replace (Z.of_nat i + 1) with (Z.of_nat (S i)) by lia.
      destruct (IH (S i) ((mf P * Z.lxor x (x / 2 ^ (w - 2)) + Z.of_nat i) mod 2 ^ w)) as (E & L & F); [lia|exact N|apply Z.mod_pos_bound, (w0 P V)|].
      rewrite E. cbn [bind length]. split; [reflexivity|]. split; [now rewrite L|]. constructor; assumption.
  Qed.
  Lemma make_lemma v : Z.of_nat n <= 2 ^ 63 -> exists e, mt_make P v = Ok e /\ holds P e (mt_window P v).
  Proof.
    intros N. pose proof (vw P V) as (A & B & _). unfold mt_make, mt_init_seed, mt_max. rewrite land_low by lia.
    destruct (init_1_ok (n - 1) 1 (v mod 2 ^ w)) as (E & L & F); [lia|exact N|apply Z.mod_pos_bound, (w0 P V)|].
    change (Z.of_nat 1) with 1 in *. rewrite E. cbn [bind]. eexists. split; [reflexivity|].
    exists (mt_window P v). unfold mt_window. split; [lia|]. split; [exact F|]. left. split; reflexivity.
  Qed.

  Lemma holds_win e win : holds P e win -> length win = n /\ Forall (fun x => word x) win.
  Proof.
    intros (old & L & F & [[_ ->] | (_ & _ & ->)]); [tauto|]. split; [now apply Ln|now apply advance_word].
  Qed.
  Lemma next_ok win : length win = n -> Forall (fun x => word x) win -> word (mt_next P win).
  Proof.
    intros L F. pose proof (X_next P V win L 0) as E. cbn [advance plus] in E. rewrite <- E. now apply X_word.
  Qed.
  Lemma mt_step_lemma e win : holds P e win -> exists e', mt_step P e = Ok (temper P (mt_next P win), e') /\ holds P e' (mt_adv P win).
  Proof.
    intros H. pose proof (vw P V) as (A & B & _).
    assert (C : (e = (win, n) /\ length win = n /\ Forall (fun x => word x) win) \/
      (exists old, length old = n /\ Forall (fun x => word x) old /\ (1 <= snd e < n)%nat /\ fst e = advance P n old /\ win = advance P (snd e) old)).
    { destruct H as (old & L & F & [[-> ->] | (I & E & ->)]); [left; tauto|]. destruct (Nat.eq_dec (snd e) n) as [Q|Q].
      - left. rewrite Q. split; [|split; [now apply Ln|now apply advance_word]]. destruct e as [x i]. cbn [fst snd] in *. now subst.
      - right. exists old. repeat (split; [assumption||lia|]). reflexivity. }
    unfold mt_step. destruct C as [(-> & L & F) | (old & L & F & I & E & ->)].
    - cbn [fst snd]. rewrite Nat.eqb_refl, (do_twist_ok P V win L F). cbn [bind fst snd].
      rewrite rdn by (rewrite (Ln P V win L); lia). cbn [bind]. rewrite (nth_X P V win L) by lia.
      assert (E : X P win (n + 0) = mt_next P win). { rewrite Nat.add_0_r. pose proof (X_next P V win L 0) as Q. cbn [advance plus] in Q. exact Q. }
      rewrite E. destruct (temper_ok (mt_next P win) (next_ok win L F)) as [-> _]. cbn [bind]. eexists. split; [reflexivity|].
      exists win. split; [exact L|]. split; [exact F|]. right. cbn [fst snd advance]. split; [lia|]. split; reflexivity.
    - destruct (Nat.eqb_spec (snd e) n); [lia|]. cbn [bind]. rewrite E. rewrite rdn by (rewrite (Ln P V old L); lia). cbn [bind].
      rewrite (nth_X P V old L) by lia. rewrite Nat.add_comm, (X_next P V old L).
      destruct (temper_ok (mt_next P (advance P (snd e) old))) as [-> _].
      { apply next_ok; [now apply Ln|now apply advance_word]. }
      cbn [bind]. eexists. split; [reflexivity|]. exists old. split; [exact L|]. split; [exact F|]. right. cbn [fst snd]. split; [lia|].
      split; [reflexivity|]. now rewrite advance_S.
  Qed.
  Lemma mt_run_lemma : forall k e win, holds P e win -> run (mt_step P) k e = Ok (mt_outputs P k win).
  Proof.
    induction k as [|k IH]; intros e win H; [reflexivity|]. cbn [run mt_outputs]. destruct (mt_step_lemma e win H) as (e' & E & H').
    rewrite E. cbn [bind fst snd]. rewrite (IH _ _ H'). reflexivity.
  Qed.
  Lemma mt_seeded_lemma v k : Z.of_nat n <= 2 ^ 63 -> bind (mt_make P v) (run (mt_step P) k) = Ok (mt_outputs P k (mt_window P v)).
  Proof. intros N. destruct (make_lemma v N) as (e & E & H). rewrite E. cbn [bind]. now apply mt_run_lemma. Qed.
  Lemma outputs_range : forall k win, length win = n -> Forall (fun x => word x) win -> Forall (fun x => 0 <= x <= mt_max P) (mt_outputs P k win).
  Proof.
    induction k as [|k IH]; intros win L F; cbn [mt_outputs]; constructor.
    - destruct (temper_ok _ (next_ok win L F)) as [_ H]. unfold mt_max. lia.
    - apply IH; [exact (Ln P V win L 1)|exact (advance_word P V win L F 1)].
  Qed.
  Lemma seeded_range v k : Z.of_nat n <= 2 ^ 63 -> Forall (fun x => 0 <= x <= mt_max P) (mt_outputs P k (mt_window P v)).
  Proof. intros N. destruct (make_lemma v N) as (e & _ & H). apply holds_win in H. now apply outputs_range. Qed.

  (** ** equality *)
  Hypothesis M2 : (2 <= m)%nat.
  Hypothesis A1 : Z.testbit (ma P) (w - 1) = true.

  Lemma untwist_ok y : word y -> untwist P (times_a P y) = Ok y.
  Proof.
    intros Y. pose proof (vw P V) as (A & _). pose proof (wW P V) as HW. pose proof (va P V) as (Ha & _). unfold untwist. rewrite (sl P V) by lia. cbn [bind].
    rewrite Z.mul_1_l, Z.mod_small by (split; [apply Z.lt_le_incl, pow_pos; lia|apply pow_strict; lia]).
    assert (Y2 : 0 <= y / 2 < 2 ^ (w - 1)).
    { split; [apply Z.div_pos; lia|]. apply Z.div_lt_upper_bound; [lia|]. replace (2 * 2 ^ (w - 1)) with (2 ^ w); [lia|]. rewrite <- Z.pow_succ_r by lia. f_equal. lia. }
    assert (B2 : Z.testbit (y / 2) (w - 1) = false) by (apply (proj1 (lt_pow_bits (y / 2) (w - 1) ltac:(lia) ltac:(lia)) Y2); lia).
    assert (L : forall z, 0 <= z -> (Z.land z (2 ^ (w - 1)) =? 0) = negb (Z.testbit z (w - 1))).
    { intros z Hz. destruct (Z.testbit z (w - 1)) eqn:Tb; cbn [negb].
      - apply Z.eqb_neq. intros E. assert (Z.testbit (Z.land z (2 ^ (w - 1))) (w - 1) = true) by (rewrite Z.land_spec, Tb, Z.pow2_bits_true by lia; reflexivity).
        rewrite E, Z.bits_0 in *. discriminate.
      - apply Z.eqb_eq. apply Z.bits_inj'. intros i Hi. rewrite Z.land_spec, Z.bits_0. destruct (Z.eq_dec i (w - 1)) as [-> |]; [now rewrite Tb|].
        rewrite Z.pow2_bits_false by lia. apply andb_false_r. }
    rewrite L by (pose proof (times_a_word P V y Y); lia). rewrite negb_involutive. unfold times_a. destruct (Z.odd y) eqn:O.
    - rewrite Z.lxor_spec, B2, A1. cbn [xorb]. rewrite (sl P V) by lia. cbn [bind]. rewrite Z.lxor_assoc, Z.lxor_nilpotent, Z.lxor_0_r.
      change (2 ^ 1) with 2. assert (E : y = 2 * (y / 2) + 1). { pose proof (Z.div_mod y 2 ltac:(lia)). rewrite Zmod_odd, O in *. lia. }
      rewrite Z.mod_small by lia. f_equal. pose proof (lor_add (y / 2) 1 1 ltac:(lia) ltac:(cbn; lia)) as La. change (2 ^ 1) with 2 in La. rewrite La. lia.
    - rewrite B2. rewrite (sl P V) by lia. f_equal. change (2 ^ 1) with 2. assert (E : y = 2 * (y / 2)). { pose proof (Z.div_mod y 2 ltac:(lia)). rewrite Zmod_odd, O in *. lia. }
      rewrite Z.mod_small by lia. lia.
  Qed.
  Lemma untwist_X x : forall k, length x = n -> Forall (fun x => word x) x ->
    untwist P (Z.lxor (X P x (k + m)) (X P x (k + n))) = Ok (glue P (X P x k) (X P x (k + 1))).
  Proof.
    intros k L F. rewrite (X_rec P V x L). rewrite <- Z.lxor_assoc, Z.lxor_nilpotent, Z.lxor_0_l. apply untwist_ok, glue_word; [exact V|]. now apply X_word.
  Qed.

  Lemma glue_parts x0 x1 x2 : word x1 -> Z.lor (Z.land (glue P x1 x2) (2 ^ W - 2 ^ r)) (Z.land (glue P x0 x1) (2 ^ r - 1)) = x1.
  Proof.
    intros H1. pose proof (vw P V) as (A & _ & R & _). rewrite (glue_ok P V) by (apply glue_word; assumption). unfold glue.
    pose proof (pow_pos r ltac:(lia)) as Rp. pose proof (Z.mod_pos_bound x2 (2 ^ r) Rp) as M. pose proof (Z.mod_pos_bound x1 (2 ^ r) Rp) as M'.
    rewrite (Z.mul_comm (2 ^ r) (x1 / 2 ^ r)), Z.div_add_l, (Z.div_small (x2 mod 2 ^ r)) by lia.
    rewrite (Z.mul_comm (2 ^ r) (x0 / 2 ^ r)), (Z.add_comm (x0 / 2 ^ r * 2 ^ r)), Z_mod_plus_full, Z.mod_mod by lia.
    rewrite Z.add_0_r. symmetry. apply Z.div_mod. lia.
  Qed.

  Section Rewind.
    Variable old : list Z.
    Hypothesis Lo : length old = n.
    Hypothesis Fo : Forall (fun x => word x) old.
    Notation X := (X P old).
    Notation x := (advance P n old).
    Definition bck (sz : nat) : list Z := map (fun p => if (p <? n - sz)%nat then 0 else X p) (seq 0 n).
    Lemma bck_length sz : length (bck sz) = n.
    Proof. unfold bck. now rewrite map_length, seq_length. Qed.
    Lemma bck_nth sz p : (p < n)%nat -> nth p (bck sz) 0 = if (p <? n - sz)%nat then 0 else X p.
    Proof. intros H. unfold bck. now rewrite map_seq_nth. Qed.
    Lemma bck_0 : bck 0 = repeat 0 n.
    Proof.
      apply list_ext; rewrite bck_length; [now rewrite repeat_length|]. intros i Hi. rewrite bck_nth, nth_repeat by exact Hi. destruct (Nat.ltb_spec i (n - 0)); [reflexivity|lia].
    Qed.
    Lemma bck_upd sz : (sz < n)%nat -> upd (bck sz) (n - 1 - sz) (X (n - 1 - sz)) = bck (S sz).
    Proof.
      intros H. apply list_ext. { now rewrite upd_length', !bck_length. }
      intros i Hi. rewrite upd_length', bck_length in Hi. rewrite (bck_nth (S sz)) by exact Hi. destruct (Nat.eq_dec i (n - 1 - sz)) as [-> |N].
      - rewrite upd_nth_eq by (rewrite bck_length; lia). destruct (Nat.ltb_spec (n - 1 - sz) (n - S sz)); [lia|reflexivity].
      - rewrite upd_nth_neq by lia. rewrite bck_nth by exact Hi. destruct (Nat.ltb_spec i (n - sz)), (Nat.ltb_spec i (n - S sz)); try reflexivity; lia.
    Qed.
    Lemma find_ok sz i : (S sz < n)%nat -> (1 <= i < n)%nat -> rewind_find P x (bck sz) sz i = Ok (X (n - 1 - sz + i)).
    Proof.
      intros H I. unfold rewind_find. destruct (le_lt_dec (S sz) i) as [G|G].
      - assert (E : ((i + n - sz + n - 1) mod n = i - 1 - sz)%nat).
        { symmetry. apply (Nat.mod_unique _ _ 2); lia. }
        rewrite E. destruct (Nat.ltb_spec (i - 1 - sz) (n - sz)); [|lia]. rewrite rdn by (rewrite (Ln P V old Lo); lia).
        rewrite (nth_X P V old Lo) by lia. do 2 f_equal. lia.
      - assert (E : ((i + n - sz + n - 1) mod n = n + i - 1 - sz)%nat).
        { symmetry. apply (Nat.mod_unique _ _ 1); lia. }
        rewrite E. destruct (Nat.ltb_spec (n + i - 1 - sz) (n - sz)); [lia|]. rewrite rdn by (rewrite bck_length; lia).
        rewrite bck_nth by lia. destruct (Nat.ltb_spec (n - 1 - (n - 1 - (n + i - 1 - sz))) (n - sz)); [lia|]. do 2 f_equal. lia.
    Qed.
    Lemma rewind_ok z : (z < n)%nat -> do_rewind P x (repeat 0 n) z = Ok (bck z).
    Proof.
      intros Hz. pose proof (vw P V) as (A & B & _). unfold do_rewind. rewrite !rdn by (rewrite (Ln P V old Lo); lia). cbn [bind].
      rewrite !(nth_X P V old Lo) by lia.
      replace (n + (m - 1))%nat with (n - 1 + m)%nat by lia. replace (n + (n - 1))%nat with (n - 1 + n)%nat by lia.
      rewrite untwist_X by assumption. cbn [bind]. rewrite (upper_ok P V). cbn [bind].
      set (st := fun sz => (bck sz, glue P (X (n - 1 - sz)) (X (n - 1 - sz + 1)))).
      replace (repeat 0 n, glue P (X (n - 1)) (X (n - 1 + 1))) with (st O).
      2: { unfold st. rewrite bck_0, Nat.sub_0_r. reflexivity. }
      rewrite (for_ok _ st); [reflexivity|]. intros sz Hs. unfold st at 1. rewrite !find_ok by lia. cbn [bind].
      replace (n - 1 - sz + (m - 1))%nat with (n - 1 - S sz + m)%nat by lia. replace (n - 1 - sz + (n - 1))%nat with (n - 1 - S sz + n)%nat by lia.
      rewrite untwist_X by assumption. cbn [bind]. rewrite (lower_ok P V).
      replace (n - 1 - S sz + 1)%nat with (n - 1 - sz)%nat by lia. rewrite glue_parts by (now apply X_word).
      rewrite wr_upd by (rewrite bck_length; lia). cbn [bind]. rewrite bck_upd by lia. unfold st. do 4 f_equal. lia.
    Qed.
  End Rewind.

  Lemma adv_inj u v : length u = n -> length v = n -> Forall (fun x => word x) u -> Forall (fun x => word x) v ->
    mt_adv P (mt_adv P u) = mt_adv P (mt_adv P v) -> mt_adv P u = mt_adv P v.
  Proof.
    intros Lu Lv Fu Fv E. pose proof (vw P V) as (A & B & R & _).
    assert (K : forall k, (2 <= k < 2 + n)%nat -> X P u k = X P v k).
    { intros k Hk. pose proof (nth_X P V u Lu (k - 2) 2 ltac:(lia)) as Eu. pose proof (nth_X P V v Lv (k - 2) 2 ltac:(lia)) as Ev.
      cbn [advance] in Eu, Ev. rewrite E in Eu. replace (2 + (k - 2))%nat with k in * by lia. congruence. }
    assert (G : forall k, (k <= 1)%nat -> glue P (X P u k) (X P u (k + 1)) = glue P (X P v k) (X P v (k + 1))).
    { intros k Hk. pose proof (untwist_X u k Lu Fu) as Eu. pose proof (untwist_X v k Lv Fv) as Ev. rewrite !K in Eu by lia. congruence. }
    assert (E1 : X P u 1 = X P v 1).
    { rewrite <- (glue_parts (X P u 0) (X P u 1) (X P u 2)) by (now apply X_word). pose proof (G O ltac:(lia)) as G0. pose proof (G 1%nat ltac:(lia)) as G1.
      cbn [plus] in G0, G1. rewrite G0, G1. apply glue_parts. now apply X_word. }
    change (mt_adv P u) with (advance P 1 u). change (mt_adv P v) with (advance P 1 v).
    apply list_ext. { now rewrite !Ln. } intros i Hi. rewrite (Ln P V u Lu) in Hi. rewrite !nth_X by assumption.
    destruct i as [|i]; [exact E1|]. apply K. lia.
  Qed.
  Lemma advance_inj : forall k u v, length u = n -> length v = n -> Forall (fun x => word x) u -> Forall (fun x => word x) v ->
    advance P k (mt_adv P u) = advance P k (mt_adv P v) -> mt_adv P u = mt_adv P v.
  Proof.
    induction k as [|k IH]; intros u v Lu Lv Fu Fv E; [exact E|]. cbn [advance] in E. apply IH in E.
    - now apply adv_inj.
    - exact (Ln P V u Lu 1).
    - exact (Ln P V v Lv 1).
    - exact (advance_word P V u Lu Fu 1).
    - exact (advance_word P V v Lv Fv 1).
  Qed.

  Lemma cmp_loop (p q : nat -> res Z) (f g : nat -> Z) : forall k, (forall j, (j < k)%nat -> p j = Ok (f j) /\ q j = Ok (g j)) ->
    exists b, for_ k 0 (fun j b => x <- p j ;; y <- q j ;; Ok (b && (x =? y))) true = Ok b /\ (b = true <-> forall j, (j < k)%nat -> f j = g j).
  Proof.
    intros k H. set (st := fun j => forallb (fun i => f i =? g i) (seq 0 j)).
    exists (st k). split.
    - change true with (st O). rewrite (for_ok _ st); [reflexivity|]. intros j Hj. destruct (H j ltac:(lia)) as [-> ->]. cbn [bind]. f_equal.
      unfold st. rewrite (seq_S j), forallb_app. cbn [forallb plus]. now rewrite andb_true_r.
    - unfold st. rewrite forallb_forall. split.
      + intros Q j Hj. apply Z.eqb_eq, Q, in_seq. lia.
      + intros Q j Hj. apply in_seq in Hj. apply Z.eqb_eq, Q. lia.
  Qed.

  Lemma x_of e win : holds P e win -> fst e = advance P (n - snd e) win /\ (1 <= snd e <= n)%nat.
  Proof.
    pose proof (vw P V) as (_ & B & _). intros (old & L & F & [[-> ->] | (I & E & ->)]); cbn [fst snd].
    - rewrite Nat.sub_diag. split; [reflexivity|lia].
    - split; [|lia]. rewrite E, <- advance_add. f_equal. lia.
  Qed.
  Lemma win_eq e1 e2 w1 w2 : holds P e1 w1 -> holds P e2 w2 -> (snd e1 <= snd e2)%nat -> advance P (n - snd e2) w1 = advance P (n - snd e2) w2 -> w1 = w2.
  Proof.
    intros H1 H2 I E. destruct (Nat.eq_dec (snd e2) n) as [Q|Q]. { rewrite Q, Nat.sub_diag in E. exact E. }
    destruct H1 as (o1 & L1 & F1 & [[-> ->] | (I1 & _ & ->)]); [cbn [snd] in *; destruct (x_of e2 w2 H2); lia|].
    destruct H2 as (o2 & L2 & F2 & [[-> ->] | (I2 & _ & ->)]); [cbn [snd] in *; lia|].
    replace (snd e1) with (S (snd e1 - 1)) in * by lia. replace (advance P (snd e2) o2) with (advance P (S (snd e2 - 1)) o2) in * by (f_equal; lia).
    rewrite !advance_S in *. eapply advance_inj; [now apply Ln|now apply Ln|now apply advance_word|now apply advance_word|exact E].
  Qed.
  Lemma equal_impl_ok e1 e2 w1 w2 : holds P e1 w1 -> holds P e2 w2 -> (snd e1 <= snd e2)%nat ->
    exists b, do_equal_impl P e1 e2 = Ok b /\ (b = true <-> w1 = w2).
  Proof.
    intros H1 H2 I. pose proof (vw P V) as (_ & B & _). pose proof (x_of e1 w1 H1) as [X1 I1]. pose proof (x_of e2 w2 H2) as [X2 I2].
    pose proof (holds_win e1 w1 H1) as [L1 F1]. pose proof (holds_win e2 w2 H2) as [L2 F2].
    assert (W2 : w1 = w2 <-> fst e2 = advance P (n - snd e2) w1).
    { rewrite X2. split; [now intros ->|]. intros E. apply (win_eq e1 e2); auto. }
    unfold do_equal_impl. set (off := (snd e2 - snd e1)%nat).
    assert (Lx1 : length (fst e1) = n) by (rewrite X1; now apply Ln). assert (Lx2 : length (fst e2) = n) by (rewrite X2; now apply Ln).
    destruct (cmp_loop (fun j => rd (fst e1) j) (fun j => rd (fst e2) (j + off)) (fun j => nth j (fst e1) 0) (fun j => nth (j + off) (fst e2) 0) (n - off)) as (b1 & E1 & B1).
    { intros j Hj. split; apply rdn; lia. }
    rewrite E1. cbn [bind]. destruct (Nat.eq_dec off 0) as [Z0|Z0].
    - assert (Q : b1 = true <-> w1 = w2).
      { rewrite B1, W2. replace (n - snd e2)%nat with (n - snd e1)%nat by lia. rewrite <- X1, Z0. split.
        - intros H. symmetry. apply list_ext; [lia|]. intros i Hi. rewrite (H i) by lia. f_equal. lia.
        - intros -> j Hj. f_equal. lia. }
      destruct b1; [|exists false; split; [reflexivity|exact Q]].
      rewrite Z0. exists true. split; [|exact Q]. unfold do_rewind. rewrite !rdn by lia. cbn [bind].
      assert (U : forall y, exists v, untwist P y = Ok v).
      { intros y. unfold untwist. pose proof (vw P V). rewrite (sl P V) by lia. cbn [bind]. destruct (negb _).
        - rewrite (sl P V) by lia. cbn [bind]. eexists. reflexivity.
        - rewrite (sl P V) by lia. eexists. reflexivity. }
      destruct (U (Z.lxor (nth (m - 1) (fst e1) 0) (nth (n - 1) (fst e1) 0))) as [v ->]. cbn [bind]. rewrite (upper_ok P V). reflexivity.
    - destruct H1 as (old & L & F & [[-> ->] | (I1' & E & ->)]); [cbn [snd] in *; lia|].
      replace (advance P (n - snd e2) (advance P (snd e1) old)) with (advance P (n - off) old) in W2.
      2: { rewrite <- advance_add. f_equal. lia. }
      destruct b1.
      + rewrite E. rewrite rewind_ok by (assumption || lia). cbn [bind].
        destruct (cmp_loop (fun j => rd (bck old off) (j + n - off)) (fun j => rd (fst e2) j) (fun j => X P old (j + n - off)) (fun j => nth j (fst e2) 0) off) as (b2 & E2 & B2).
        { intros j Hj. split; [|apply rdn; lia]. rewrite rdn by (rewrite bck_length; lia). rewrite bck_nth by lia. destruct (Nat.ltb_spec (j + n - off) (n - off)); [lia|reflexivity]. }
        exists b2. split; [exact E2|]. rewrite B2, W2. pose proof (proj1 B1 eq_refl) as C1. split.
        * intros C2. apply list_ext; [rewrite (Ln P V old L); lia|]. intros i Hi. rewrite (nth_X P V old L) by lia. destruct (le_lt_dec off i) as [G|G].
          -- specialize (C1 (i - off)%nat ltac:(lia)). cbv beta in C1. rewrite E, (nth_X P V old L) in C1 by lia.
             replace (i - off + off)%nat with i in C1 by lia. rewrite <- C1. f_equal. lia.
          -- rewrite <- C2 by exact G. f_equal. lia.
        * intros Q j Hj. rewrite Q, (nth_X P V old L) by lia. f_equal. lia.
      + exists false. split; [reflexivity|]. split; [discriminate|]. intros Q. apply W2 in Q. apply B1. intros j Hj. rewrite E, Q, !(nth_X P V old L) by lia. f_equal. lia.
  Qed.
  Lemma mt_equal_lemma e1 e2 w1 w2 : holds P e1 w1 -> holds P e2 w2 -> exists b, mt_equal P e1 e2 = Ok b /\ (b = true <-> w1 = w2).
  Proof.
    intros H1 H2. unfold mt_equal. destruct (Nat.ltb_spec (snd e1) (snd e2)).
    - apply equal_impl_ok; auto. lia.
    - destruct (equal_impl_ok e2 e1 w2 w1 H2 H1) as (b & E & B); [lia|]. exists b. split; [exact E|]. rewrite B. split; auto.
  Qed.
  Lemma equal_future_lemma e1 e2 w1 w2 k : holds P e1 w1 -> holds P e2 w2 -> mt_equal P e1 e2 = Ok true -> run (mt_step P) k e1 = run (mt_step P) k e2.
  Proof.
    intros H1 H2 E. destruct (mt_equal_lemma e1 e2 w1 w2 H1 H2) as (b & Eb & B). rewrite Eb in E. injection E as ->.
    rewrite (mt_run_lemma k e1 w1 H1), (mt_run_lemma k e2 w2 H2). now rewrite (proj1 B eq_refl).
  Qed.
End Mt.

(** ** streaming *)
Lemma copy_loop (x : list Z) : for_ (length x) 0 (fun i (l : list Z) => v <- rd x i ;; Ok (l ++ [v])) [] = Ok x.
Proof.
  change (@nil Z) with (firstn 0 x). rewrite (for_ok _ (fun i => firstn i x)).
  - cbn [plus]. now rewrite firstn_all.
  - intros j Hj. rewrite rdn by lia. cbn [bind]. f_equal. clear - Hj. revert j Hj. induction x as [|a x IH]; intros j Hj; cbn [length] in Hj; [lia|].
    destruct j as [|j]; [reflexivity|]. rewrite !firstn_cons. cbn [nth app]. f_equal. apply IH. lia.
Qed.
Lemma stream_lemma P x : length x = mn P -> (1 <= mn P)%nat ->
  exists l, mt_write_full (x, mn P) = Ok l /\ length l = S (mn P) /\ mt_read P l = Some ((nth 0 x 0 :: firstn (mn P - 1) x, mn P), [last x 0]).
Proof.
  intros L N. unfold mt_write_full. cbn [fst snd]. rewrite rdn by lia. cbn [bind]. rewrite <- L, copy_loop. cbn [bind]. eexists. split; [reflexivity|].
  split; [reflexivity|]. unfold mt_read. rewrite <- L. cbn [length]. destruct (Nat.ltb_spec (S (length x)) (length x)); [lia|].
  assert (E : exists k, length x = S k) by (exists (length x - 1)%nat; lia). destruct E as [k E]. rewrite E. cbn [firstn skipn]. do 3 f_equal.
  - now replace (S k - 1)%nat with k by lia.
  - destruct (exists_last (l := x)) as (y & z & Q); [intros ->; cbn [length] in *; lia|]. subst x. rewrite app_length in E. cbn [length] in E.
    replace k with (length y) by lia. rewrite skipn_app, skipn_all, Nat.sub_diag. cbn [skipn app]. now rewrite last_last.
Qed.
