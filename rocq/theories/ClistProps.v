(** Properties of forward_clist. *)
From Coq Require Import List Arith Bool Lia.
From Verif Require Import Base ClistModel ClistSpec ClistProof ClistProof2.
Import ListNotations.

(** ** C182 *)
Theorem clist_runs : forall V k (h : heap V) W cs W',
  holds h W -> becomes W cs W' -> length (concat W) + length cs < k ->
  exists h', run_all k h cs = Ok h' /\ holds h' W' /\ forall p, val (h' p) = val (h p).
Proof. exact @runs_hold. Qed.
Print Assumptions clist_runs.
Example clist_runs_ex :
  let h := fun p : loc => Item (10 * p) (None : ptr) in
  let cs := [PushFront 0 2; InsertAfter 0 2 3; PushFront 1 4; Unlink 0 2; EraseRange 1 1 None] in
  holds h [[0]; [1]] /\ becomes [[0]; [1]] cs [[0; 3]; [1]]
  /\ exists h', run_all 10 h cs = Ok h' /\ walk 9 h' (begin h' 0) = Ok [30] /\ walk 9 h' (begin h' 1) = Ok [].
Proof.
  cbv zeta. split; [|split].
  - unfold holds. cbn [concat app]. split; [|split; [|split]].
    + repeat constructor.
    + repeat constructor; cbn [In]; lia.
    + repeat constructor; discriminate.
    + reflexivity.
  - apply (becomes_cons [] [0] [[1]]); [cbn; intuition lia|]. cbn [effect ins Nat.eqb app].
    apply (becomes_cons [] [0; 2] [[1]]); [cbn; intuition lia|]. cbn [effect ins Nat.eqb app].
    apply (becomes_cons [[0; 2; 3]] [1] []); [cbn; intuition lia|]. cbn [effect ins Nat.eqb app].
    apply (becomes_cons [] [0; 2; 3] [[1; 4]]); [cbn; intuition lia|]. cbn [effect rem Nat.eqb app].
    apply (becomes_cons [[0; 3]] [1; 4] []); [|constructor].
    split; [reflexivity|]. exists [], [4]. split; [reflexivity|exact I].
  - eexists. split; [reflexivity|]. split; reflexivity.
Qed.

Theorem clist_runs_seen : forall V k (h : heap V) W cs W',
  holds h W -> becomes W cs W' -> length (concat W) + length cs < k ->
  exists h', run_all k h cs = Ok h' /\
    forall l xs k', In (l :: xs) W' -> length xs < k' ->
      walk k' h' (begin h' l) = Ok (map (fun p => val (h p)) xs).
Proof. exact @runs_seen. Qed.
Print Assumptions clist_runs_seen.

Theorem clist_unlink_range : forall V k (h : heap V) A l xs B us,
  holds h (A ++ (l :: xs) :: B) -> ~ In l us -> length xs + 1 < k ->
  exists h', unlink_range k h l us = Ok h'
    /\ holds h' (A ++ fold_left (fun ys u => rem u ys) us (l :: xs) :: B) /\ forall p, val (h' p) = val (h p).
Proof. exact @unlink_many. Qed.
Print Assumptions clist_unlink_range.
Example clist_unlink_range_ex : forall h : heap nat, holds h [[0; 1; 2; 3]] ->
  exists h', unlink_range 9 h 0 [2; 7; 1] = Ok h' /\ holds h' [[0; 3]].
Proof.
  intros h H. destruct (unlink_many nat 9 h [] 0 [1; 2; 3] [] [2; 7; 1] H) as (h' & E & H' & _);
    [cbn [In]; lia | cbn [length]; lia |]. exists h'. split; [exact E | exact H'].
Qed.

(** ** C183 *)
Theorem clist_walk : forall V k (h : heap V) l xs, linked h (l :: xs) -> length xs < k ->
  walk k h (begin h l) = Ok (map (fun p => val (h p)) xs).
Proof. exact @walk_all. Qed.
Print Assumptions clist_walk.
Example clist_walk_ex :
  let h := fun p : loc => Item (10 * p) (match p with 0 => Some 4 | 4 => Some 2 | _ => None end) in
  linked h [0; 4; 2] /\ walk 3 h (begin h 0) = Ok [40; 20].
Proof. repeat split. Qed.

Theorem clist_iterators : forall V (h : heap V) l xs, linked h (l :: xs) ->
  begin h l = hd_error xs /\ it_next h (before_begin l) = Ok (begin h l)
  /\ front h l = match xs with x :: _ => Ok (val (h x)) | [] => UB end
  /\ (forall a x b, xs = a ++ x :: b -> it_get h (Some x) = Ok (val (h x)) /\ it_next h (Some x) = Ok (hd_error b))
  /\ it_next h end_ = UB /\ it_get h end_ = UB.
Proof. exact @iterators. Qed.
Print Assumptions clist_iterators.

Theorem clist_iterators_equal : forall i j, it_eq i j = true <-> i = j.
Proof. exact @iterators_equal. Qed.
Print Assumptions clist_iterators_equal.

Theorem clist_returned : forall V (h : heap V) a p b,
  linked h (a ++ p :: b) -> NoDup (a ++ p :: b) ->
  (forall x, exists h', insert_after h (Some p) x = Ok (h', Some x))
  /\ (forall f c, b = f :: c -> exists h', erase_after h (Some p) = Ok (h', hd_error c))
  /\ (forall q k, behind p q (p :: b) -> length b < k ->
        exists h', erase_after_range k h (Some p) q = Ok (h', q)).
Proof. exact @returned. Qed.
Print Assumptions clist_returned.
Example clist_returned_ex :
  let h := fun p : loc => Item p (match p with 0 => Some 4 | 4 => Some 2 | 2 => Some 3 | _ => None end) in
  linked h [0; 4; 2; 3] /\ behind 0 (Some 3) [0; 4; 2; 3]
  /\ (exists h', erase_after h (Some 4) = Ok (h', Some 3))
  /\ exists h', erase_after_range 9 h (Some 0) (Some 3) = Ok (h', Some 3).
Proof.
  cbv zeta. split; [|split; [|split]].
  - repeat split.
  - exists [], [4; 2; 3]. split; [reflexivity|]. cbn [In]. lia.
  - eexists. reflexivity.
  - eexists. reflexivity.
Qed.

Theorem clist_is_linked : forall V (h : heap V) W p, holds h W ->
  (is_linked h p = true <-> exists a q b, In (a ++ p :: q :: b) W).
Proof. exact @is_linked_iff. Qed.
Print Assumptions clist_is_linked.

(** ** C184 *)
Theorem clist_misuse_ub : forall V (h : heap V) l,
  linked h [l] -> front h l = UB /\ pop_front h l = UB /\ erase_after h (before_begin l) = UB
  /\ (forall x, insert_after h end_ x = UB) /\ erase_after h end_ = UB.
Proof. exact @misuse_ub. Qed.
Print Assumptions clist_misuse_ub.

Theorem clist_erase_last_ub : forall V (h : heap V) a p, linked h (a ++ [p]) -> erase_after h (Some p) = UB.
Proof. exact @erase_last_ub. Qed.
Print Assumptions clist_erase_last_ub.

Theorem clist_erase_range_ub : forall V k (h : heap V) a p b q,
  linked h (a ++ p :: b) -> NoDup (a ++ p :: b) -> ~ In q b -> length b < k ->
  erase_after_range k h (Some p) (Some q) = UB.
Proof. exact @erase_range_ub. Qed.
Print Assumptions clist_erase_range_ub.
Example clist_misuse_ex :
  let h := fun p : loc => Item p (match p with 0 => Some 4 | 4 => Some 2 | _ => None end) in
  linked h [0; 4; 2] /\ erase_after h (Some 2) = UB /\ erase_after_range 9 h (Some 4) (Some 4) = UB
  /\ erase_after_range 9 h (Some 2) (Some 4) = UB.
Proof. repeat split. Qed.

Theorem clist_push_twice : forall V (h : heap V) l xs x, linked h (l :: xs) -> NoDup (l :: xs) -> In x xs ->
  forall k, walk k (push_front h l x) (begin (push_front h l x) l) = Fuel.
Proof. exact @push_twice. Qed.
Print Assumptions clist_push_twice.
Example clist_push_twice_ex :
  let h := push_front (push_front (fun p : loc => Item p (None : ptr)) 0 1) 0 2 in
  linked h [0; 2; 1] /\ walk 50 (push_front h 0 1) (begin (push_front h 0 1) 0) = Fuel.
Proof. repeat split. Qed.

Theorem clist_push_shared : forall V (h : heap V) l xs l2 c x d,
  linked h (l :: xs) -> linked h (l2 :: c ++ x :: d) -> NoDup ((l :: xs) ++ l2 :: c ++ x :: d) ->
  let h' := push_front h l x in linked h' (l :: x :: xs) /\ linked h' (l2 :: c ++ x :: xs).
Proof. exact @push_shared. Qed.
Print Assumptions clist_push_shared.

(** ** C185 *)
Theorem clist_empty_wrong : forall V (h : heap V) l xs, linked h (l :: xs) ->
  empty h l = match xs with [] => false | _ => true end.
Proof. exact @empty_wrong. Qed.
Print Assumptions clist_empty_wrong.

Theorem clist_empty_refuted : ~ (forall V (h : heap V) l xs, holds h [l :: xs] -> (empty h l = true <-> xs = [])).
Proof. exact @empty_refuted. Qed.
Print Assumptions clist_empty_refuted.

Theorem clist_cbefore_begin_refuted : ~ (forall V (h : heap V) l xs, holds h [l :: xs] -> it_next h (cbefore_begin h l) = Ok (begin h l)).
Proof. exact @cbefore_begin_refuted. Qed.
Print Assumptions clist_cbefore_begin_refuted.

Theorem clist_move_wrong : forall V (h : heap V) l xs l2, linked h (l :: xs) -> ~ In l2 (l :: xs) ->
  let h' := move_construct h l2 l in linked h' (l2 :: xs) /\ linked h' (l :: xs).
Proof. exact @move_wrong. Qed.
Print Assumptions clist_move_wrong.

Theorem clist_move_pop : forall V (h : heap V) l x xs l2, linked h (l :: x :: xs) -> NoDup (l2 :: l :: x :: xs) ->
  exists h', pop_front (move_construct h l2 l) l2 = Ok h' /\ linked h' (l2 :: xs) /\ linked h' [l; x].
Proof. exact @move_pop. Qed.
Print Assumptions clist_move_pop.
Example clist_move_ex :
  let h := fun p : loc => Item p (match p with 0 => Some 4 | 4 => Some 2 | _ => None end) in
  linked h [0; 4; 2] /\ (let g := move_construct h 7 0 in linked g [7; 4; 2] /\ linked g [0; 4; 2]).
Proof. repeat split. Qed.

Theorem clist_move_refuted : ~ (forall V (h : heap V) l xs l2, holds h [l :: xs] -> l2 <> l -> ~ In l2 xs ->
       linked (move_construct h l2 l) (l2 :: xs) /\ linked (move_construct h l2 l) [l]).
Proof. exact @move_refuted. Qed.
Print Assumptions clist_move_refuted.

