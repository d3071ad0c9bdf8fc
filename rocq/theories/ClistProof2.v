From Coq Require Import List Arith Bool Lia Permutation.
From Verif Require Import Base ClistModel ClistSpec ClistProof.
Import ListNotations.

(** ** Any sequence of calls *)

Lemma effect_length : forall c ys, length (effect c ys) <= length ys + 1 \/ ys = [].
Proof.
  intros c ys. destruct ys as [|y t]; [right; reflexivity | left].
  assert (I : forall p x zs, length (ins p x zs) <= length zs + 1).
  { induction zs as [|z zs IH]; cbn [ins length]; [lia|]. destruct (z =? p); cbn [length]; lia. }
  assert (T : forall zs : list loc, length (tl zs) <= length zs) by (intros [|z zs]; cbn [tl length]; lia).
  assert (R : forall p zs, length (era p zs) <= length zs).
  { induction zs as [|z zs IH]; cbn [era length]; [lia|]. specialize (T zs). destruct (z =? p); cbn [length]; lia. }
  assert (F : forall q zs, length (from q zs) <= length zs).
  { induction zs as [|z zs IH]; cbn [from length]; [lia|]. destruct (it_eq (Some z) q); cbn [length]; lia. }
  assert (Q : forall p q zs, length (era_to p q zs) <= length zs).
  { induction zs as [|z zs IH]; cbn [era_to length]; [lia|]. specialize (F q zs). destruct (z =? p); cbn [length]; lia. }
  assert (M : forall x zs, length (rem x zs) <= length zs).
  { induction zs as [|z zs IH]; cbn [rem length]; [lia|]. destruct (z =? x); cbn [length]; lia. }
  destruct c as [l x|l|l p x|l p|l p q|l|l x]; cbn [effect]; try apply I.
  - specialize (R l (y :: t)). lia.
  - specialize (R p (y :: t)). lia.
  - specialize (Q p q (y :: t)). lia.
  - cbn [length]. lia.
  - specialize (M x (y :: t)). lia.
Qed.

Theorem runs_hold : forall V k (h : heap V) W cs W',
  holds h W -> becomes W cs W' -> length (concat W) + length cs < k ->
  exists h', run_all k h cs = Ok h' /\ holds h' W' /\ forall p, val (h' p) = val (h p).
Proof.
  intros V k h W cs W' H R. revert h H. induction R as [W|A ys B c cs W AL R IH]; intros h H K.
  - exists h. split; [reflexivity|]. split; [exact H | reflexivity].
  - pose proof (mid_length A ys B) as ML. cbn [length] in K.
    destruct (step_holds V k h A ys B c H AL) as (h1 & E & H1 & V1); [unfold loc in *; lia|].
    cbn [run_all]. rewrite E. cbn [bind].
    destruct (IH h1 H1) as (h2 & E2 & H2 & V2).
    + pose proof (Permutation_length (concat_mid A ys B)) as P1.
      pose proof (Permutation_length (concat_mid A (effect c ys) B)) as P2.
      rewrite app_length in P1, P2.
      destruct (effect_length c ys) as [F|F].
      * unfold loc in *. lia.
      * destruct H as (_ & _ & NE & _). rewrite Forall_forall in NE. exfalso.
        apply (NE ys); [apply in_or_app; right; left; reflexivity | exact F].
    + exists h2. split; [exact E2|]. split; [exact H2|]. intros p. rewrite V2. apply V1.
Qed.

(** ** Going through a list *)

Lemma walk_linked : forall V xs k (h : heap V), linked h xs -> length xs < k ->
  walk k h (hd_error xs) = Ok (map (fun p => val (h p)) xs).
Proof.
  induction xs as [|x xs IH]; intros k h L K; (destruct k as [|k]; [lia|]); cbn [walk hd_error].
  - reflexivity.
  - destruct L as [L1 L2]. cbn [end_ it_eq it_get it_next deref bind]. rewrite L1.
    rewrite (IH k h L2) by (cbn [length] in K; lia). reflexivity.
Qed.

Theorem walk_all : forall V k (h : heap V) l xs, linked h (l :: xs) -> length xs < k ->
  walk k h (begin h l) = Ok (map (fun p => val (h p)) xs).
Proof. intros V k h l xs [L1 L2] K. unfold begin. rewrite L1. apply walk_linked; assumption. Qed.

(** what a program sees of its lists after its calls *)
Theorem runs_seen : forall V k (h : heap V) W cs W',
  holds h W -> becomes W cs W' -> length (concat W) + length cs < k ->
  exists h', run_all k h cs = Ok h' /\
    forall l xs k', In (l :: xs) W' -> length xs < k' ->
      walk k' h' (begin h' l) = Ok (map (fun p => val (h p)) xs).
Proof.
  intros V k h W cs W' H R K. destruct (runs_hold V k h W cs W' H R K) as (h' & E & H' & V').
  exists h'. split; [exact E|]. intros l xs k' I K'. destruct H' as (L & _).
  rewrite Forall_forall in L. rewrite (walk_all V k' h' l xs (L _ I) K').
  f_equal. apply map_ext. exact V'.
Qed.

Theorem iterators : forall V (h : heap V) l xs, linked h (l :: xs) ->
  begin h l = hd_error xs /\ it_next h (before_begin l) = Ok (begin h l)
  /\ front h l = match xs with x :: _ => Ok (val (h x)) | [] => UB end
  /\ (forall a x b, xs = a ++ x :: b -> it_get h (Some x) = Ok (val (h x)) /\ it_next h (Some x) = Ok (hd_error b))
  /\ it_next h end_ = UB /\ it_get h end_ = UB.
Proof.
  intros V h l xs L. pose proof L as [L1 L2]. unfold begin, front, before_begin. cbn [it_next it_get deref bind end_]. rewrite L1.
  repeat match goal with |- _ /\ _ => split end; try reflexivity.
  - destruct xs; reflexivity.
  - intros a x b E. split; [reflexivity|]. f_equal. subst xs. exact (linked_next _ _ _ _ _ L2).
Qed.

Theorem iterators_equal : forall i j, it_eq i j = true <-> i = j.
Proof. exact it_eq_spec. Qed.

Theorem returned : forall V (h : heap V) a p b,
  linked h (a ++ p :: b) -> NoDup (a ++ p :: b) ->
  (forall x, exists h', insert_after h (Some p) x = Ok (h', Some x))
  /\ (forall f c, b = f :: c -> exists h', erase_after h (Some p) = Ok (h', hd_error c))
  /\ (forall q k, behind p q (p :: b) -> length b < k ->
        exists h', erase_after_range k h (Some p) q = Ok (h', q)).
Proof.
  intros V h a p b L N. repeat match goal with |- _ /\ _ => split end.
  - intros x. unfold insert_after. cbn [deref bind]. eexists. reflexivity.
  - intros f c ->. unfold erase_after. cbn [deref bind]. pose proof (linked_next _ _ _ _ _ L) as Np.
    rewrite Np. cbn [hd_error deref bind]. eexists. f_equal. f_equal.
    destruct (NoDup_mid _ _ _ N) as (_ & Nb & _). unfold unlink_item.
    rewrite next_set_other by (intros ->; apply Nb; left; reflexivity). rewrite next_set_same.
    apply (linked_next _ h (a ++ [p]) f c). rewrite <- app_assoc. exact L.
  - intros q k (a' & b' & E & Q) K.
    destruct (NoDup_mid _ _ _ N) as (_ & Nb & _ & N2).
    assert (b' = b) as ->.
    { destruct a' as [|y a']; [injection E as ->; reflexivity|]. injection E as -> E. exfalso. apply Nb. rewrite E.
      apply in_or_app; right; left; reflexivity. }
    destruct (split_last q b N2 Q) as (m & c & -> & Hc & _). rewrite app_length in K.
    destruct (erase_range_turns V k h a p m c L N) as (h1 & R & _); [unfold loc in *; lia|].
    rewrite Hc in R. exists h1. exact R.
Qed.

Theorem unlink_many : forall V k (h : heap V) A l xs B us,
  holds h (A ++ (l :: xs) :: B) -> ~ In l us -> length xs + 1 < k ->
  exists h', unlink_range k h l us = Ok h'
    /\ holds h' (A ++ fold_left (fun ys u => rem u ys) us (l :: xs) :: B) /\ forall p, val (h' p) = val (h p).
Proof.
  intros V k h A l xs B us. revert h xs. induction us as [|u us IH]; intros h xs H NI K.
  - exists h. split; [reflexivity|]. split; [exact H | reflexivity].
  - destruct (step_holds V k h A (l :: xs) B (Unlink l u) H) as (h1 & E & H1 & V1).
    { split; [reflexivity|]. intros ->. apply NI; left; reflexivity. }
    { cbn [length]. unfold loc in *; lia. }
    cbn [run] in E. cbn [unlink_range fold_left]. rewrite E. cbn [bind effect] in *.
    assert (Lu : (l =? u) = false) by (apply Nat.eqb_neq; intros ->; apply NI; left; reflexivity).
    cbn [rem] in H1 |- *. rewrite Lu in H1 |- *.
    destruct (IH h1 (rem u xs) H1) as (h2 & E2 & H2 & V2).
    + intros J; apply NI; right; exact J.
    + assert (M : forall zs, length (rem u zs) <= length zs).
      { induction zs as [|z zs IHz]; cbn [rem length]; [lia|]. destruct (z =? u); cbn [length]; lia. }
      specialize (M xs). unfold loc in *; lia.
    + exists h2. split; [exact E2|]. split; [exact H2|]. intros p. rewrite V2. apply V1.
Qed.

(** is_linked: the item is in a list and not its last *)
Theorem is_linked_iff : forall V (h : heap V) W p, holds h W ->
  (is_linked h p = true <-> exists a q b, In (a ++ p :: q :: b) W).
Proof.
  intros V h W p (L & N & E & O). unfold is_linked. rewrite Forall_forall in L. split.
  - intros H. destruct (next (h p)) as [q|] eqn:Q; [|discriminate].
    destruct (in_dec Nat.eq_dec p (concat W)) as [I|I]; [|rewrite (O p I) in Q; discriminate].
    apply in_concat in I. destruct I as (ys & Iy & Ip). destruct (in_split _ _ Ip) as (a & b & ->).
    pose proof (linked_next _ _ _ _ _ (L _ Iy)) as Q'. rewrite Q in Q'. destruct b as [|z b]; [discriminate|].
    exists a, z, b. exact Iy.
  - intros (a & q & b & I). rewrite (linked_next _ _ _ _ _ (L _ I)). reflexivity.
Qed.

(** ** Outside the contract *)

Theorem misuse_ub : forall V (h : heap V) l,
  linked h [l] -> front h l = UB /\ pop_front h l = UB /\ erase_after h (before_begin l) = UB
  /\ (forall x, insert_after h end_ x = UB) /\ erase_after h end_ = UB.
Proof.
  intros V h l [L _]. cbn [hd_error] in L. unfold front, pop_front, erase_after, before_begin, insert_after. cbn [deref bind end_].
  rewrite L. repeat split.
Qed.

Theorem erase_last_ub : forall V (h : heap V) a p, linked h (a ++ [p]) -> erase_after h (Some p) = UB.
Proof.
  intros V h a p L. unfold erase_after. cbn [deref bind]. rewrite (linked_next _ _ _ _ _ L). reflexivity.
Qed.

Lemma erase_loop_ub : forall V q b k (h : heap V), linked h b -> NoDup b -> ~ In q b -> length b < k ->
  erase_loop k h (hd_error b) (Some q) = UB.
Proof.
  induction b as [|y b IH]; intros k h L N Q K; (destruct k as [|k]; [lia|]); cbn [erase_loop hd_error].
  - reflexivity.
  - rewrite it_eq_neq by (intros J; apply Q; left; congruence). destruct L as [L1 L2]. cbn [it_next deref bind]. rewrite L1.
    inversion N as [|? ? Ny N']; subst.
    apply IH; [|exact N'|intros J; apply Q; right; exact J|cbn [length] in K; lia].
    apply linked_ext with (2 := L2). intros z Hz. apply next_set_other, (neq_in _ _ _ Hz Ny).
Qed.

(** a range whose end is not behind its beginning *)
Theorem erase_range_ub : forall V k (h : heap V) a p b q,
  linked h (a ++ p :: b) -> NoDup (a ++ p :: b) -> ~ In q b -> length b < k ->
  erase_after_range k h (Some p) (Some q) = UB.
Proof.
  intros V k h a p b q L N Q K. destruct (NoDup_mid _ _ _ N) as (_ & Nb & _ & N2).
  pose proof (proj1 (linked_app _ _ _ _ _) L) as [_ [Lp Lb]].
  unfold erase_after_range. cbn [deref bind]. rewrite Lp.
  rewrite erase_loop_ub; [reflexivity| |exact N2|exact Q|exact K].
  apply linked_ext with (2 := Lb). intros z Hz. apply next_set_other, (neq_in _ _ _ Hz Nb).
Qed.

(** an item pushed to the list it is in: going through the list never ends *)
Lemma walk_cycle : forall V (h : heap V) c (x : loc), lseg h (x :: c) x ->
  forall k q d, (exists e, x :: c = e ++ q :: d) -> walk k h (Some q) = Fuel.
Proof.
  intros V h c x L. induction k as [|k IH]; intros q d [e E]; [reflexivity|].
  cbn [walk end_ it_eq it_get it_next deref bind].
  assert (N : next (h q) = Some (hd x d)).
  { rewrite E in L. clear E IH. induction e as [|z e IHe]; [exact (proj1 L)|]. apply IHe, L. }
  rewrite N. destruct d as [|z d]; cbn [hd].
  - rewrite (IH x c) by (exists []; reflexivity). reflexivity.
  - rewrite (IH z d) by (exists (e ++ [q]); rewrite <- app_assoc; exact E). reflexivity.
Qed.

Theorem push_twice : forall V (h : heap V) l xs x, linked h (l :: xs) -> NoDup (l :: xs) -> In x xs ->
  forall k, walk k (push_front h l x) (begin (push_front h l x) l) = Fuel.
Proof.
  intros V h l xs x L N I k. destruct (in_split _ _ I) as (a & b & ->).
  inversion N as [|? ? Nl N']; subst. destruct (NoDup_mid _ _ _ N') as (Na & Nb & _).
  assert (Xl : x <> l) by (intros ->; exact (Nl I)).
  assert (B : begin (push_front h l x) l = Some x) by (unfold begin, push_front; apply next_set_same).
  rewrite B. destruct L as [L1 L2]. apply linked_app in L2. destruct L2 as [L2 L3].
  apply (walk_cycle V _ a x) with (d := a); [|exists []; reflexivity].
  unfold push_front. split.
  - rewrite next_set_other by exact Xl. rewrite next_set_same, L1. destruct a; reflexivity.
  - apply lseg_ext with (2 := L2). intros q Hq. rewrite !next_set_other; [reflexivity | |].
    + exact (neq_in _ _ _ Hq Na).
    + intros ->. apply Nl, in_or_app; left; exact Hq.
Qed.

(** an item pushed to a second list: the first goes on into the second *)
Theorem push_shared : forall V (h : heap V) l xs l2 c x d,
  linked h (l :: xs) -> linked h (l2 :: c ++ x :: d) -> NoDup ((l :: xs) ++ l2 :: c ++ x :: d) ->
  let h' := push_front h l x in linked h' (l :: x :: xs) /\ linked h' (l2 :: c ++ x :: xs).
Proof.
  intros V h l xs l2 c x d L L' N h'. 
  assert (X : In x (l2 :: c ++ x :: d)) by (right; apply in_or_app; right; left; reflexivity).
  assert (Nx : ~ In x (l :: xs)) by (intros J; exact (NoDup_disj _ _ N x J X)).
  assert (Xl : x <> l) by (intros ->; apply Nx; left; reflexivity).
  assert (Nl : ~ In l xs) by (inversion N; subst; intros J; apply H1, in_or_app; left; exact J).
  pose proof (NoDup_app_r _ _ N) as N2.
  change (l2 :: c ++ x :: d) with ((l2 :: c) ++ x :: d) in N2, L'.
  destruct (NoDup_mid _ _ _ N2) as (Nc & _). apply linked_app in L'. destruct L' as [L1 L2].
  assert (T : linked h' (x :: xs)).
  { unfold h', push_front. destruct L as [Ll Lx]. split.
    - rewrite next_set_other by exact Xl. rewrite next_set_same. exact Ll.
    - apply linked_ext with (2 := Lx). intros q Hq. rewrite !next_set_other; [reflexivity| |].
      + intros ->. apply Nx; right; exact Hq.
      + exact (neq_in _ _ _ Hq Nl). }
  split.
  - split; [|exact T]. unfold h', push_front. apply next_set_same.
  - change (l2 :: c ++ x :: xs) with ((l2 :: c) ++ x :: xs). apply linked_app. split; [|exact T].
    apply lseg_ext with (2 := L1). intros q Hq. unfold h', push_front. rewrite !next_set_other; [reflexivity| |].
    + exact (neq_in _ _ _ Hq Nc).
    + intros ->. apply (NoDup_disj _ _ N l); [left; reflexivity|].
      change (l2 :: c ++ x :: d) with ((l2 :: c) ++ x :: d). apply in_or_app; left; exact Hq.
Qed.

(** ** Where the code is wrong *)

(** empty answers the opposite *)
Theorem empty_wrong : forall V (h : heap V) l xs, linked h (l :: xs) ->
  empty h l = match xs with [] => false | _ => true end.
Proof. intros V h l xs [L _]. unfold empty. rewrite L. destruct xs; reflexivity. Qed.

Theorem empty_refuted : ~ (forall V (h : heap V) l xs, holds h [l :: xs] -> (empty h l = true <-> xs = [])).
Proof.
  intros H. specialize (H nat (fun _ => Item 0 None) 0 []). destruct H as [_ H].
  - unfold holds. repeat split; try (repeat constructor); try discriminate; intros [].
  - specialize (H eq_refl). discriminate H.
Qed.

Theorem cbefore_begin_wrong : forall V (h : heap V) l, cbefore_begin h l = begin h l.
Proof. reflexivity. Qed.

Theorem cbefore_begin_refuted :
  ~ (forall V (h : heap V) l xs, holds h [l :: xs] -> it_next h (cbefore_begin h l) = Ok (begin h l)).
Proof.
  intros H. specialize (H nat (fun _ => Item 0 None) 0 []). 
  assert (K : holds (fun _ : loc => Item 0 None) [[0]]).
  { unfold holds. repeat split; try (repeat constructor); try discriminate; intros []. }
  specialize (H K). discriminate H.
Qed.

(** a list constructed from a moved one has its items, but the other keeps them too *)
Theorem move_wrong : forall V (h : heap V) l xs l2, linked h (l :: xs) -> ~ In l2 (l :: xs) ->
  let h' := move_construct h l2 l in linked h' (l2 :: xs) /\ linked h' (l :: xs).
Proof.
  intros V h l xs l2 L N h'.
  assert (F : forall q, q <> l2 -> h' q = h q).
  { intros q Hq. unfold h', move_construct, set. apply Nat.eqb_neq in Hq. rewrite Hq. reflexivity. }
  assert (T : linked h' (l :: xs)).
  { apply linked_ext with (2 := L). intros q Hq. rewrite F; [reflexivity|]. exact (neq_in _ _ _ Hq N). }
  split; [|exact T]. split; [|exact (proj2 T)].
  unfold h', move_construct, set. rewrite Nat.eqb_refl. exact (proj1 L).
Qed.

(** so that taking the first item off the new list cuts the old one behind it *)
Theorem move_pop : forall V (h : heap V) l x xs l2, linked h (l :: x :: xs) -> NoDup (l2 :: l :: x :: xs) ->
  exists h', pop_front (move_construct h l2 l) l2 = Ok h' /\ linked h' (l2 :: xs) /\ linked h' [l; x].
Proof.
  intros V h l x xs l2 L N. inversion N as [|? ? Nl2 N1]; subst.
  destruct (move_wrong V h l (x :: xs) l2 L Nl2) as [M1 M2]. set (g := move_construct h l2 l) in *.
  unfold pop_front. pose proof M1 as [E1 [E2 E3]]. pose proof M2 as [F1 F2]. rewrite E1. cbn [hd_error deref bind].
  inversion N1 as [|? ? Nl N2]; subst. inversion N2 as [|? ? Nx N3]; subst.
  assert (D1 : l2 <> x) by (intros ->; apply Nl2; right; left; reflexivity).
  assert (D2 : l2 <> l) by (intros ->; apply Nl2; left; reflexivity).
  assert (D3 : l <> x) by (intros ->; apply Nl; left; reflexivity).
  eexists. split; [reflexivity|]. unfold unlink_item. split; [split|split; [|split]].
  - rewrite next_set_other by exact D1. rewrite next_set_same. exact E2.
  - apply linked_ext with (2 := E3). intros q Hq. rewrite !next_set_other; [reflexivity| |].
    + intros ->. apply Nl2. right; right; exact Hq.
    + exact (neq_in _ _ _ Hq Nx).
  - rewrite !next_set_other by congruence. exact F1.
  - apply next_set_same.
  - exact I.
Qed.

Theorem move_refuted :
  ~ (forall V (h : heap V) l xs l2, holds h [l :: xs] -> l2 <> l -> ~ In l2 xs ->
       linked (move_construct h l2 l) (l2 :: xs) /\ linked (move_construct h l2 l) [l]).
Proof.
  intros H.
  specialize (H nat (fun p => Item 0 (if p =? 0 then Some 1 else None)) 0 [1] 2).
  destruct H as [_ [H _]]; [|discriminate|intros [J|[]]; discriminate|].
  - unfold holds. repeat match goal with |- _ /\ _ => split end.
    + constructor; [|constructor]. repeat split.
    + cbn [concat app]. repeat constructor; cbn [In]; intros J; repeat destruct J as [J|J]; discriminate || contradiction.
    + constructor; [discriminate|constructor].
    + intros p J. cbn [next]. destruct (p =? 0) eqn:E; [|reflexivity]. apply Nat.eqb_eq in E. subst. destruct J. left; reflexivity.
  - discriminate H.
Qed.
