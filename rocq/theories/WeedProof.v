(** Proofs about the terminals and the attributes of WeedModel.v. *)
From Coq Require Import List Arith ZArith Bool Lia ZifyBool ZifyNat.
From Verif Require Import Base BaseProof BitModel BitSpec BitProof FixProof WordModel WeedModel WeedSpec.
Import ListNotations.
Open Scope nat_scope.

(** * Attributes *)
Lemma ity_eqb_eq t u : ity_eqb t u = true -> t = u.
Proof.
  unfold ity_eqb. intros H. apply andb_prop in H. destruct H as [H1 H2].
  apply eqb_prop in H1. apply Nat.eqb_eq in H2. destruct t, u. cbn in *. congruence.
Qed.
Lemma ity_eqb_refl t : ity_eqb t t = true.
Proof. unfold ity_eqb. rewrite eqb_reflx, Nat.eqb_refl. reflexivity. Qed.

Lemma val_ty_default b : val_ty (default_val b) = b.
Proof. destruct b; cbn; rewrite ?repeat_length; reflexivity. Qed.

Lemma seq_val_ok v w :
  typed (seq_val v w) (seq_bty (val_ty v) (val_ty w)) /\ items (seq_val v w) = val_items v ++ val_items w.
Proof.
  destruct v as [c|t z|l|t l], w as [c'|u z'|l'|u l']; cbn [val_ty seq_val seq_bty];
    try (destruct (ity_eqb t u) eqn:E; [apply ity_eqb_eq in E; subst u|]); cbn; rewrite ?app_nil_r, ?map_app, ?app_length; auto.
Qed.

Lemma seq_attr_ok a b t u : typed a t -> typed b u -> seq_ty t u <> TOther ->
  typed (seq_attr a b) (seq_ty t u) /\ items (seq_attr a b) = items a ++ items b.
Proof.
  intros Ha Hb Ht.
  destruct a as [|v|l|], t as [|b1|l1|]; cbn in Ha; try contradiction;
    destruct b as [|w|m|], u as [|b2|m2|]; cbn in Hb; try contradiction; subst; cbn [seq_ty seq_attr] in *;
    try apply seq_val_ok; cbn; rewrite ?app_nil_r, ?map_app, ?flat_map_app; cbn; rewrite ?app_nil_r; auto.
Qed.

Lemma alt_attr_ok a t u : alt_ty t u <> TOther -> typed a t \/ typed a u ->
  typed (alt_attr t u a) (alt_ty t u) /\ items (alt_attr t u a) = items a.
Proof.
  intros Ht Ha.
  destruct t as [|[|t1| |t1 n1]|l1|], u as [|[|t2| |t2 n2]|l2|]; cbn in Ht |- *; try congruence;
    try (destruct (ity_eqb t1 t2) eqn:E; cbn in Ht |- *; [apply ity_eqb_eq in E; subst t2|congruence]);
    try (destruct (n1 =? n2) eqn:E; cbn in Ht |- *; [apply Nat.eqb_eq in E; subst n2|congruence]);
    destruct a as [|v|l|]; cbn in Ha; try (destruct Ha; contradiction);
    try (destruct v; cbn in Ha |- *; destruct Ha as [Ha|Ha]; try contradiction; try discriminate Ha; auto);
    try (destruct Ha; auto); cbn; auto.
Qed.

Lemma times_attr_ok t args ys : times_ty t <> TOther ->
  Forall2 (fun a y => typed a t /\ items a = y) args ys ->
  typed (times_attr t args) (times_ty t) /\ items (times_attr t args) = concat ys.
Proof.
  intros Ht H. destruct t as [|[| | |]|l|]; cbn in Ht |- *; try congruence.
  - split; [easy|]. induction H as [|a y args ys [T I] H IH]; [easy|].
    destruct a; cbn in T; try contradiction. cbn in I. subst y. exact IH.
  - split; [easy|]. induction H as [|a y args ys [T I] H IH]; [easy|].
    destruct a as [|v|l|]; cbn in T; try contradiction. destruct v; try discriminate T.
    cbn in I. subst y. cbn. now rewrite IH.
  - split; [easy|]. induction H as [|a y args ys [T I] H IH]; [easy|].
    destruct a as [|v|l|]; cbn in T; try contradiction. destruct v; try discriminate T.
    cbn in I. subst y. cbn. now rewrite map_app, IH.
Qed.

Lemma pow_wid t : (0 < 2 ^ wid t)%Z.
Proof. pose proof (half_pos t). pose proof (wid_half t). lia. Qed.

(** * Digits *)
Lemma position_in c l : In c l -> position c l < length l /\ nth_error l (position c l) = Some c.
Proof.
  induction l as [|x l IH]; cbn; [easy|]. intros H. destruct (Z.eqb_spec x c) as [->|N]; [split; [lia|easy]|].
  destruct H as [->|H]; [easy|]. destruct (IH H). split; [lia|easy].
Qed.
Lemma position_out c l : ~ In c l -> position c l = length l.
Proof.
  induction l as [|x l IH]; cbn; [easy|]. intros H. destruct (Z.eqb_spec x c) as [->|N]; [tauto|].
  rewrite IH; tauto.
Qed.
Lemma digit_of_out radix c : (radix <= 16)%Z -> ~ (48 <= c <= 57)%Z -> ~ (97 <= c <= 102)%Z -> ~ (65 <= c <= 70)%Z -> digit_of radix c = None.
Proof.
  intros H H1 H2 H3. unfold digit_of.
  destruct ((48 <=? c) && (c <=? 57))%Z eqn:E1; [lia|]. destruct ((97 <=? c) && (c <=? 102))%Z eqn:E2; [lia|].
  destruct ((65 <=? c) && (c <=? 70))%Z eqn:E3; [lia|]. destruct (Z.ltb_spec 99 radix); [lia|easy].
Qed.

Definition digit_pair (o : option Z) : Z * bool := match o with Some v => (v, true) | None => (0%Z, false) end.

Lemma from_ndigit_ok radix c : In radix [2; 8; 10; 16]%Z -> from_ndigit radix c = digit_pair (digit_of radix c).
Proof.
  intros HR.
  assert (HC : In c xdigits \/ ~ In c xdigits) by (destruct (in_dec Z.eq_dec c xdigits); auto).
  destruct HC as [HC|HC].
  - cbn in HR, HC. repeat (destruct HR as [<-|HR]; [repeat (destruct HC as [<-|HC]; [vm_compute; reflexivity|]); contradiction|]).
    contradiction.
  - assert (N : ~ (48 <= c <= 57)%Z /\ ~ (97 <= c <= 102)%Z /\ ~ (65 <= c <= 70)%Z) by (cbn in HC; lia).
    destruct N as (N1&N2&N3).
    rewrite digit_of_out by (auto; cbn in HR; lia). cbn [digit_pair].
    cbn in HR. unfold from_ndigit.
    destruct HR as [<-|[<-|[<-|[<-|[]]]]]; cbn [Z.eqb Pos.eqb]; rewrite position_out by (cbn in HC |- *; lia); reflexivity.
Qed.

(** * Character sets *)
Definition set_hit (set : list Z) (v : Z) (i : nat) : bool :=
  let c := nth i set 0%Z in
  if (c =? 45)%Z then ((nth (i - 1) set 0 <=? v) && (v <=? nth (i + 1) set 0))%Z else (c =? v)%Z.

Lemma rd_app0 (set : list Z) i : i <= length set -> rd (set ++ [0%Z]) i = Ok (nth i set 0%Z).
Proof.
  intros H. unfold rd. destruct (Nat.eq_dec i (length set)) as [->|N].
  - rewrite nth_error_app2, Nat.sub_diag by lia. cbn. now rewrite nth_overflow by lia.
  - rewrite nth_error_app1 by lia. rewrite nth_error_nth' with (d := 0%Z) by lia. reflexivity.
Qed.

Lemma set_test_ok set v i : hd 0%Z set <> 45%Z -> i < length set -> set_test set v i (S i) = Ok (set_hit set v i).
Proof.
  intros Hh Hi. unfold set_test, set_hit. rewrite rd_app0 by lia. cbn [bind].
  destruct (Z.eqb_spec (nth i set 0%Z) 45) as [E|E]; [|reflexivity].
  destruct i as [|j].
  - destruct set; cbn in *; congruence.
  - rewrite rd_app0 by lia. cbn [bind]. replace (S j - 1) with j by lia.
    destruct (nth j set 0 <=? v)%Z; [|reflexivity].
    rewrite rd_app0 by lia. cbn [bind andb]. now replace (S j + 1) with (S (S j)) by lia.
Qed.

Lemma in_set_hit set v : hd 0%Z set <> 45%Z -> last set 0%Z <> 45%Z ->
  (in_set set v <-> exists i, i < length set /\ set_hit set v i = true).
Proof.
  intros Hh Hl. split.
  - intros [[H N]|(pre&a&b&post&->&H)].
    + apply In_nth with (d := 0%Z) in H. destruct H as (i&Hi&E). exists i. split; [easy|].
      unfold set_hit. rewrite E. destruct (Z.eqb_spec v 45); [easy|lia].
    + exists (S (length pre)). rewrite app_length. cbn [length]. split; [lia|].
      unfold set_hit. rewrite (app_nth2 pre _ 0%Z (n := S (length pre))) by lia.
      replace (S (length pre) - length pre) with 1 by lia. cbn [nth].
      rewrite Z.eqb_refl. rewrite !app_nth2 by lia.
      replace (S (length pre) - 1 - length pre) with 0 by lia. replace (S (length pre) + 1 - length pre) with 2 by lia.
      cbn [nth]. lia.
  - intros (i&Hi&H). unfold set_hit in H.
    destruct (Z.eqb_spec (nth i set 0%Z) 45) as [E|E].
    + right. assert (i <> 0) by (intros ->; destruct set; cbn in *; congruence).
      assert (i + 1 <> length set).
      { intros L. apply Hl. rewrite <- E. clear -L. revert i L. induction set as [|x l IH]; cbn; intros i L; [lia|].
        destruct l as [|y l]; [cbn in L; now replace i with 0 by lia|]. destruct i; [cbn in L; lia|].
        apply IH. cbn in *. lia. }
      exists (firstn (i - 1) set), (nth (i - 1) set 0%Z), (nth (i + 1) set 0%Z), (skipn (i + 2) set).
      split; [|lia].
      assert (G : forall (l : list Z) n, n < length l -> skipn n l = nth n l 0%Z :: skipn (S n) l).
      { clear. induction l as [|x l IH]; intros [|n] L; cbn in *; try lia; [easy|]. apply IH. lia. }
      rewrite <- (firstn_skipn (i - 1) set) at 1. f_equal.
      rewrite G by lia. f_equal. replace (S (i - 1)) with i by lia. rewrite G by lia. rewrite E. f_equal.
      rewrite G by lia. replace (S (S i)) with (i + 2) by lia. replace (S i) with (i + 1) by lia. reflexivity.
    + left. assert (nth i set 0%Z = v) by lia. subst v. split; [now apply nth_In|easy].
Qed.

Section Terminals.
  Variable s : list Z.
  Variables d k : nat.
  Variable int_digits : ity -> Z -> Z.
  Notation len := (length s).

  Lemma find_character_set_ok set v : hd 0%Z set <> 45%Z -> last set 0%Z <> 45%Z -> Nat.log2_up (length set) < d ->
    exists i, find_character_set d set v = Ok i /\ (negb (i =? length set) = true <-> in_set set v).
  Proof.
    clear s k int_digits. intros Hh Hl Hd. unfold find_character_set.
    destruct (Nat.eqb_spec 0 (length set)) as [E|E].
    - destruct set; [|discriminate]. exists 0. split; [easy|]. cbn.
      split; [easy|]. intros [[[] _]|(pre&a&b&post&H&_)]. destruct pre; discriminate.
    - pose proof (ra_search_ok (set_test set v) (set_hit set v) d 0 (length set) 0 ltac:(lia)) as R.
      rewrite Nat.sub_0_r in R. cbn [Nat.eqb] in R.
      exists (scan (set_hit set v) 0 (length set)). split.
      + apply R; [|easy]. intros i Hi. apply set_test_ok; [easy|lia].
      + rewrite in_set_hit by assumption. destruct (scan_spec (set_hit set v) (length set) 0) as (B&F&T). cbn [Nat.add] in *.
        set (r := scan _ _ _) in *. rewrite negb_true_iff, Nat.eqb_neq. split.
        * intros N. exists r. split; [lia|]. apply T. lia.
        * intros (i&Hi&Hit) ->. rewrite F in Hit by lia. discriminate.
  Qed.

  (** What evaluation has to give: [P] is the meaning, [A] relates attributes and yields, [W] is
      what undefined behaviour implies, [nul] tells whether nothing may be consumed. *)
  Definition good (P : nat -> outcome -> Prop) (A : attr -> list item -> Prop) (W : Prop) (nul : bool) (i : nat)
      (x : res eres) : Prop :=
    match x with
    | Ok r => cx r = cur r /\
        if ok r then (if nul then i <= cur r else i < cur r) /\ cur r <= len /\
                     exists y, P i (Some (cur r, y)) /\ A (at_ r) y
        else cur r = i /\ P i None
    | UB => W
    | Fuel => False
    end.

  Lemma nth_none i c : i <= len -> (i =? len) = true -> nth_error s i = Some c -> False.
  Proof. intros H E N. apply Nat.eqb_eq in E. assert (i < len) by (apply nth_error_Some; congruence). lia. Qed.
  Lemma rd_at i : i <= len -> (i =? len) = false -> exists c, rd s i = Ok c /\ nth_error s i = Some c /\ i < len.
  Proof.
    intros H E. apply Nat.eqb_neq in E. destruct (nth_error s i) as [c|] eqn:N.
    - exists c. unfold rd. rewrite N. repeat split; auto. lia.
    - apply nth_error_None in N. lia.
  Qed.

  Lemma one_ok test T a y dflt (A : attr -> list item -> Prop) W i :
    (forall c, exists b, test c = Ok b /\ (b = true <-> T c)) -> (forall c, A (a c) (y c)) -> i <= len ->
    good (char_peg s T y) A W false i (one s test a dflt i).
  Proof.
    intros Ht Ha Hi. unfold one. destruct (i =? len) eqn:E; cbn [negb].
    - cbn. split; [easy|]. split; [easy|]. right. split; [|easy]. intros c N. destruct (nth_none i c Hi E N).
    - destruct (rd_at i Hi E) as (c&R&N&L). rewrite R. cbn [bind]. destruct (Ht c) as (b&Hb&B). rewrite Hb. cbn [bind].
      destruct b; cbn.
      + split; [easy|]. split; [lia|]. split; [lia|]. exists (y c). split; [|apply Ha]. left. exists c. tauto.
      + split; [easy|]. split; [easy|]. right. split; [|easy]. intros c' N' Tc. assert (c' = c) by congruence. subst c'.
        apply B in Tc. discriminate.
  Qed.

  Lemma list_eqb_eq l m : list_eqb l m = true <-> l = m.
  Proof.
    clear. revert m. induction l as [|x l IH]; intros [|y m]; cbn; try easy.
    rewrite andb_true_iff, IH, Z.eqb_eq. split; [intros [-> ->]; easy|]. intros H. inversion H. auto.
  Qed.
  Lemma text_ok t i : (text s t i = true <-> firstn (length t) (skipn i s) = t).
  Proof.
    clear d k int_digits. unfold text. rewrite andb_true_iff, list_eqb_eq. split; [intros [_ H]; congruence|].
    intros H. split; [|congruence]. apply Nat.leb_le. rewrite <- H at 1. rewrite firstn_length, skipn_length. lia.
  Qed.
  Lemma text_len t i : i <= len -> text s t i = true -> i + length t <= len.
  Proof. clear d k int_digits. unfold text. intros Hi H. apply andb_prop in H. destruct H as [H _]. apply Nat.leb_le in H. lia. Qed.

  Lemma text_good t y a b (A : attr -> list item -> Prop) W i : A a y -> i <= len ->
    good (text_peg s t y) A W (match t with [] => true | _ => false end) i
      (Ok (if text s t i then presult true (i + length t) a else presult false i b)).
  Proof.
    intros Ha Hi. unfold good. destruct (text s t i) eqn:E; cbn.
    - split; [easy|]. split; [destruct t; cbn; lia|]. split; [now apply text_len|]. exists y. split; [|easy].
      left. split; [now apply text_ok|easy].
    - split; [easy|]. split; [easy|]. right. split; [|easy]. rewrite <- text_ok. congruence.
  Qed.

  (** * Numbers *)
  Section Num.
    Variables (t : ity) (radix mind maxd : Z) (tf : nat).
    Hypothesis HR : In radix [2; 8; 10; 16]%Z.
    Hypothesis Hmind : (mind <= 1)%Z.
    Hypothesis Hmaxd : (2 <= maxd)%Z.
    Hypothesis Hdig : (2 <= int_digits t radix)%Z.
    Notation lim := (limit_digits int_digits t radix maxd).

    Lemma lim_bounds : (2 <= lim <= maxd)%Z.
    Proof. clear Hmind HR tf mind s d k. unfold limit_digits. destruct (Z.leb_spec maxd (int_digits t radix)); lia. Qed.

    Lemma conv_step z a v : conv t a = conv t z -> conv t (conv t a * radix + v) = conv t (z * radix + v).
    Proof.
      clear. intros ->. apply conv_of_mod. pose proof (pow_wid t) as P.
      rewrite Z.add_mod, Z.mul_mod, conv_mod by lia. rewrite (Z.add_mod (z * radix)), (Z.mul_mod z) by lia. reflexivity.
    Qed.

    Lemma skipn_cons (l : list Z) n c : nth_error l n = Some c -> skipn n l = c :: skipn (S n) l.
    Proof. clear. revert n. induction l as [|x l IH]; intros [|n] H; cbn in *; try discriminate; [congruence|]. now apply IH. Qed.

    Lemma run_nonpos m l : (m <= 0)%Z -> run radix m l = [].
    Proof. clear. intros H. destruct l; cbn; [easy|]. destruct (Z.ltb_spec 0 m); [lia|easy]. Qed.

    Lemma call_0_ok m : forall N first v z n,
      m = len - first -> first <= len -> (1 <= N < lim)%Z -> (n = N \/ N = lim - 1)%Z -> (N <= n < maxd)%Z -> v = conv t z ->
      let ds := run radix (maxd - n) (skipn first s) in
      call_0 s int_digits t radix mind maxd tf m N first v n = Ok (PN true (first + length ds) (conv t (horner radix z ds)))
      /\ first + length ds <= len.
    Proof.
      pose proof lim_bounds as HL.
      induction m as [|m IH]; intros N first v z n Hm Hf HN Hn Hb Hv; cbn [call_0].
      - rewrite skipn_all2 by lia. cbn. destruct (Z.ltb_spec N mind); [lia|]. rewrite Nat.add_0_r. subst v. split; [easy|lia].
      - destruct (nth_error s first) as [c|] eqn:Nc; [|apply nth_error_None in Nc; lia].
        unfold rd. rewrite Nc. cbn [bind]. rewrite (skipn_cons _ _ _ Nc). cbn [run].
        rewrite from_ndigit_ok by exact HR. destruct (Z.ltb_spec 0 (maxd - n)); [|lia].
        destruct (digit_of radix c) as [x|] eqn:Dx; cbn [digit_pair fst snd].
        + assert (Hv' : conv t (v * radix + x) = conv t (z * radix + x)).
          { subst v. apply conv_step. reflexivity. }
          rewrite Hv'. replace (maxd - n - 1)%Z with (maxd - (n + 1))%Z by lia. cbn [length horner].
          destruct (Z.eqb_spec (N + 1) lim) as [E|E].
          * destruct (Z.ltb_spec (n + 1) maxd) as [L|L].
            -- destruct (IH (N + 1 - 1)%Z (S first) (conv t (z * radix + x)) (z * radix + x)%Z (n + 1)%Z) as [I1 I2]; try lia.
               rewrite I1. split; [do 2 f_equal; lia|lia].
            -- rewrite run_nonpos by lia. cbn. split; [do 2 f_equal; lia|lia].
          * destruct (IH (N + 1)%Z (S first) (conv t (z * radix + x)) (z * radix + x)%Z (n + 1)%Z) as [I1 I2]; try lia.
            rewrite I1. split; [do 2 f_equal; lia|lia].
        + destruct (Z.ltb_spec (N + 1) mind); [lia|]. cbn. rewrite Nat.add_0_r. subst v. split; [easy|lia].
    Qed.

    Lemma call_i_ok first c : nth_error s first = Some c ->
      let ds := run radix maxd (skipn first s) in
      call_i s int_digits t radix mind maxd tf first c =
        Ok (if match ds with [] => true | _ => false end then PN false tf 0
            else PN true (first + length ds) (conv t (horner radix 0 ds))) /\ first + length ds <= len.
    Proof.
      pose proof lim_bounds as HL. intros Nc. assert (first < len) by (apply nth_error_Some; congruence).
      rewrite (skipn_cons _ _ _ Nc). cbn [run]. unfold call_i. rewrite from_ndigit_ok by exact HR.
      destruct (Z.ltb_spec 0 maxd); [|lia].
      destruct (digit_of radix c) as [x|] eqn:Dx; cbn [digit_pair fst snd].
      - destruct (call_0_ok (len - S first) 1 (S first) (conv t x) x 1) as [I1 I2]; try lia.
        rewrite I1. cbn [length horner]. replace (0 * radix + x)%Z with x by lia. split; [do 2 f_equal; lia|lia].
      - cbn. split; [easy|lia].
    Qed.
  End Num.

  Lemma uint_good t radix mind maxd i (A : attr -> list item -> Prop) W : num_ok int_digits t radix mind maxd -> i <= len ->
    (forall z, A (ABase (VInt t z)) [IInt t z]) ->
    good (num_peg s t radix maxd 1 0) A W false i
      (r <- uint_parse s int_digits t radix mind maxd i i ;; Ok (number t r)).
  Proof.
    intros (HR&Hm&Hx&Hd) Hi HA. unfold uint_parse, num_peg.
    destruct (i =? len) eqn:E; cbn [negb].
    - cbn. split; [easy|]. split; [easy|]. right. apply Nat.eqb_eq in E. rewrite Nat.add_0_r, skipn_all2 by lia. auto.
    - destruct (rd_at i Hi E) as (c&R&N&L). rewrite R. cbn [bind].
      destruct (call_i_ok t radix mind maxd i HR Hm Hx Hd i c N) as [I1 I2]. rewrite I1. cbn [bind].
      unfold good, number. destruct (run radix maxd (skipn i s)) as [|x ds] eqn:Er; cbn [nok ncur nval presult ok cx cur at_].
      + split; [easy|]. split; [easy|]. right. rewrite Nat.add_0_r. auto.
      + split; [easy|]. split; [cbn; lia|]. split; [easy|].
        eexists. split; [|apply HA]. left. rewrite !Nat.add_0_r, Er. split; [easy|]. now rewrite Z.mul_1_l.
  Qed.

  Lemma int_call_good t radix mind maxd i n sg sgn' : num_ok int_digits t radix mind maxd -> i + n <= len ->
    (if (sg <? 0)%Z then sgn' = (-1)%Z else sgn' = 1%Z) ->
    match int_call s int_digits t radix mind maxd i (i + n) sg with
    | Ok r => if nok r then i + n < ncur r <= len /\ num_peg s t radix maxd sgn' n i (Some (ncur r, [IInt t (nval r)]))
              else ncur r = i /\ num_peg s t radix maxd sgn' n i None
    | UB => sgn t && (2 <=? lg t) = true
    | Fuel => False
    end.
  Proof.
    intros (HR&Hm&Hx&Hd) Hi Hs. unfold int_call, num_peg.
    destruct (i + n =? len) eqn:E; cbn [negb].
    - cbn. split; [easy|]. right. apply Nat.eqb_eq in E. rewrite skipn_all2 by lia. auto.
    - destruct (rd_at (i + n) Hi E) as (c&R&N&L). rewrite R. cbn [bind].
      destruct (call_i_ok t radix mind maxd i HR Hm Hx Hd (i + n) c N) as [I1 I2]. rewrite I1. cbn [bind].
      unfold make_result. destruct (run radix maxd (skipn (i + n) s)) as [|x ds] eqn:Er; cbn [nok ncur nval].
      + cbn [andb]. cbn. split; [easy|]. right. auto.
      + cbn [andb]. set (z := horner radix 0 (x :: ds)) in *.
        destruct (Z.ltb_spec sg 0) as [G|G].
        * destruct (sgn t && (conv t z =? tmin t)%Z && (2 <=? lg t)) eqn:U; [apply andb_prop in U; destruct U as [U ->];
            apply andb_prop in U; destruct U as [-> _]; reflexivity|].
          cbn [nok ncur nval]. split; [cbn in *; lia|]. left. split; [easy|]. subst sgn'. do 4 f_equal.
          apply conv_of_mod. pose proof (pow_wid t) as P.
          replace (- conv t z)%Z with (-1 * conv t z)%Z by lia. rewrite Z.mul_mod, conv_mod, <- Z.mul_mod by lia. reflexivity.
        * cbn [nok ncur nval]. split; [cbn in *; lia|]. left. split; [easy|]. subst sgn'. now rewrite Z.mul_1_l.
  Qed.

  Lemma int_good t radix mind maxd i (A : attr -> list item -> Prop) : num_ok int_digits t radix mind maxd -> i <= len ->
    (forall z, A (ABase (VInt t z)) [IInt t z]) ->
    good (prim_peg s (PInt t radix mind maxd)) A (sgn t && (2 <=? lg t) = true) false i
      (r <- int_parse s int_digits t radix mind maxd i i ;; Ok (number t r)).
  Proof.
    intros Hn Hi HA. unfold int_parse.
    destruct (i =? len) eqn:E; cbn [negb].
    - cbn. split; [easy|]. split; [easy|]. right. right. unfold is_at.
      repeat split; [intros N; exact (nth_none i _ Hi E N)|intros N; exact (nth_none i _ Hi E N)|].
      right. apply Nat.eqb_eq in E. rewrite skipn_all2 by lia. auto.
    - destruct (rd_at i Hi E) as (c&R&N&L). rewrite R. cbn [bind].
      destruct (Z.eqb_spec c 43) as [->|N1]; [|destruct (Z.eqb_spec c 45) as [->|N2]].
      + pose proof (int_call_good t radix mind maxd i 1 1 1 Hn ltac:(lia) eq_refl) as G.
        replace (S i) with (i + 1) by lia. destruct (int_call _ _ _ _ _ _ _ _ _) as [r| |]; cbn [bind]; [|exact G|contradiction].
        unfold good, number, presult. cbn [ok cx cur at_]. split; [easy|]. destruct (nok r).
        * destruct G as [G1 G2]. split; [lia|]. split; [lia|]. eexists. split; [left; split; [exact N|exact G2]|apply HA].
        * destruct G as [-> G2]. split; [easy|]. left. split; [exact N|exact G2].
      + pose proof (int_call_good t radix mind maxd i 1 (-1) (-1) Hn ltac:(lia) eq_refl) as G.
        replace (S i) with (i + 1) by lia. destruct (int_call _ _ _ _ _ _ _ _ _) as [r| |]; cbn [bind]; [|exact G|contradiction].
        unfold good, number, presult. cbn [ok cx cur at_]. split; [easy|]. destruct (nok r).
        * destruct G as [G1 G2]. split; [lia|]. split; [lia|]. eexists. split; [right; left; split; [exact N|exact G2]|apply HA].
        * destruct G as [-> G2]. split; [easy|]. right. left. split; [exact N|exact G2].
      + pose proof (int_call_good t radix mind maxd i 0 0 1 Hn ltac:(lia) eq_refl) as G.
        rewrite Nat.add_0_r in G. destruct (int_call _ _ _ _ _ _ _ _ _) as [r| |]; cbn [bind]; [|exact G|contradiction].
        unfold good, number, presult. cbn [ok cx cur at_]. split; [easy|]. unfold prim_peg, is_at.
        assert (M1 : ~ nth_error s i = Some 43%Z) by congruence. assert (M2 : ~ nth_error s i = Some 45%Z) by congruence.
        destruct (nok r).
        * destruct G as [G1 G2]. split; [lia|]. split; [lia|]. eexists. split; [right; right; repeat split; [exact M1|exact M2|exact G2]|apply HA].
        * destruct G as [-> G2]. split; [easy|]. right. right. auto.
  Qed.

  Lemma prim_good p i (A : attr -> list item -> Prop) : prim_ok int_digits p -> Nat.log2_up (set_size (EPrim p)) < d -> i <= len ->
    (forall a y, no_str (EPrim p) = true /\ typed a (prim_ty p) /\ items a = y \/ no_str (EPrim p) = false -> A a y) ->
    good (prim_peg s p) A (wide_int (EPrim p) = true) (nullable (EPrim p)) i (prim_eval s d int_digits p i).
  Proof.
    intros Hp Hd Hi HA.
    assert (T : forall (test : Z -> bool) (T : Z -> Prop), (forall c, test c = true <-> T c) -> forall c, exists b, @Ok bool (test c) = Ok b /\ (b = true <-> T c)).
    { clear. intros test T H c. exists (test c). auto. }
    destruct p as [| | |c|c|f l|set| |is void|t|t|t radix mind maxd|t radix mind maxd]; cbn [prim_eval prim_peg nullable wide_int].
    - cbn. split; [easy|]. split; [lia|]. split; [lia|]. exists []. split; [easy|]. apply HA. left. auto.
    - unfold good, presult. cbn [ok cx cur at_]. split; [easy|]. destruct (Nat.eqb_spec i len) as [E|E].
      + split; [lia|]. split; [lia|]. exists []. split; [left; auto|]. apply HA. left. cbn. auto.
      + split; [easy|]. right. auto.
    - assert (H0 : A AUnused []) by (apply HA; left; cbn; auto).
      unfold is_at. destruct (i =? len) eqn:E; cbn [negb].
      + cbn. split; [easy|]. split; [easy|]. right. right. right. repeat split; intros N; exact (nth_none i _ Hi E N).
      + destruct (rd_at i Hi E) as (c&R&N&L). rewrite R. cbn [bind].
        destruct (Z.eqb_spec c 13) as [->|N1].
        * destruct (S i =? len) eqn:E2; cbn [negb].
          -- cbn. split; [easy|]. split; [lia|]. split; [lia|]. exists []. split; [|easy]. right. left.
             replace (i + 1) with (S i) by lia. repeat split; auto. intros N2. exact (nth_none (S i) _ L E2 N2).
          -- destruct (rd_at (S i) L E2) as (e&R2&N2&L2). rewrite R2. cbn [bind].
             destruct (Z.eqb_spec e 10) as [->|N3]; cbn.
             ++ split; [easy|]. split; [lia|]. split; [lia|]. exists []. split; [|easy]. left.
                replace (i + 2) with (S (S i)) by lia. auto.
             ++ split; [easy|]. split; [lia|]. split; [lia|]. exists []. split; [|easy]. right. left.
                replace (i + 1) with (S i) by lia. repeat split; auto. congruence.
        * destruct (Z.eqb_spec c 10) as [->|N2]; cbn.
          -- split; [easy|]. split; [lia|]. split; [lia|]. exists []. split; [|easy]. right. right. left.
             replace (i + 1) with (S i) by lia. auto.
          -- split; [easy|]. split; [easy|]. right. right. right. repeat split; congruence.
    - apply one_ok; [apply T; intros; apply Z.eqb_eq| |easy]. intros x. apply HA. left. cbn. auto.
    - apply one_ok; [apply T; intros; apply Z.eqb_eq| |easy]. intros x. apply HA. left. cbn. auto.
    - apply one_ok; [apply T; intros; lia| |easy]. intros x. apply HA. left. cbn. auto.
    - cbn in Hp, Hd. apply one_ok; [| |easy].
      + intros c. destruct (find_character_set_ok set c) as (j&J&Hj); try tauto. rewrite J. cbn [bind]. eexists. split; [reflexivity|exact Hj].
      + intros x. apply HA. left. cbn. auto.
    - apply one_ok; [apply T; intros; tauto| |easy]. intros x. apply HA. left. cbn. auto.
    - apply one_ok; [apply T; intros; tauto| |easy]. intros x. apply HA. left. cbn. destruct void; cbn; auto.
    - pose proof (text_good t [] AUnused AUnused A (wide_int (EPrim (PLitStr t)) = true) i ltac:(apply HA; left; cbn; auto) Hi) as G.
      destruct t; exact G.
    - pose proof (text_good t (map IChar t) (ABase (VStr [])) (ABase (VStr [])) A (wide_int (EPrim (PStr t)) = true) i
        ltac:(apply HA; right; cbn; auto) Hi) as G. destruct t; exact G.
    - apply uint_good; [easy|easy|]. intros z. apply HA. left. cbn. auto.
    - apply int_good; [easy|easy|]. intros z. apply HA. left. cbn. auto.
  Qed.
End Terminals.
