(** Model of sprout::forward_clist (sprout/forward_clist.hpp): a singly linked list whose items
    belong to the user and are only linked by the list.  The heap maps the address of an item to
    its value and its member next (value_holder<item&>, a pointer that may be null,
    utility/value_holder/value_holder.hpp 104-135: * and -> do not check, so using a null one is
    undefined).  A list is its member fst, an item as well, and is named here by the address of
    fst.  An iterator is the pointer it holds (line 84).  Nothing is proved here.

    Not modelled because they do not compile when used: construction, assignment and insertion
    from a range (p is assigned a value_holder, lines 332, 402, 425), assign (344), operator= (the
    assignment of item is deleted, lines 232-233, 339), swap (the same, 449), item::operator=
    (281, 286), before_begin of a const list (353). *)
From Coq Require Import List Arith Bool.
From Verif Require Import Base.
Import ListNotations.

Section Clist.
  Variable V : Type.

  Definition loc := nat.
  Definition ptr := option loc.

  Record item : Type := Item { val : V; next : ptr }.
  Definition heap := loc -> item.

  Definition set (h : heap) (p : loc) (c : item) : heap := fun q => if q =? p then c else h q.

  (** p->next = n *)
  Definition set_next (h : heap) (p : loc) (n : ptr) : heap := set h p (Item (val (h p)) n).

  (** * and -> of value_holder<item&> *)
  Definition deref (i : ptr) : res loc := match i with Some p => Ok p | None => UB end.

  (** item::unlink, lines 263-266 *)
  Definition unlink_item (h : heap) (p : loc) : heap := set_next h p None.

  (** item::unlink_all, lines 254-262; [k] bounds the recursion *)
  Fixpoint unlink_all (k : nat) (h : heap) (p : loc) : res heap :=
    match k with
    | O => Fuel
    | S k' =>
        match next (h p) with
        | None => Ok h
        | Some n => h1 <- unlink_all k' h n ;; Ok (set_next h1 p None)
        end
    end.

  (** item::is_linked, lines 314-316 *)
  Definition is_linked (h : heap) (p : loc) : bool :=
    match next (h p) with Some _ => true | None => false end.

  (** ** Iterators (lines 71-155) *)

  (** forward_item_iterator::next, lines 97-99 *)
  Definition it_next (h : heap) (i : ptr) : res ptr := p <- deref i ;; Ok (next (h p)).

  (** operator*, lines 105-107 *)
  Definition it_get (h : heap) (i : ptr) : res V := p <- deref i ;; Ok (val (h p)).

  (** operator==, lines 131-135: the addresses of the values are those of the items *)
  Definition it_eq (i j : ptr) : bool :=
    match i, j with
    | None, None => true
    | Some p, Some q => p =? q
    | _, _ => false
    end.

  (** ** The list *)

  (** before_begin, lines 349-351 *)
  Definition before_begin (l : loc) : ptr := Some l.
  (** begin, lines 355-360; end, 361-366 *)
  Definition begin (h : heap) (l : loc) : ptr := next (h l).
  Definition end_ : ptr := None.
  (** cbefore_begin, lines 370-372 *)
  Definition cbefore_begin (h : heap) (l : loc) : ptr := next (h l).

  (** empty, lines 377-379: !!fst.next *)
  Definition empty (h : heap) (l : loc) : bool :=
    match next (h l) with Some _ => true | None => false end.

  (** front, lines 384-389 *)
  Definition front (h : heap) (l : loc) : res V := p <- deref (next (h l)) ;; Ok (val (h p)).

  (** push_front, lines 391-395 *)
  Definition push_front (h : heap) (l x : loc) : heap :=
    let h1 := set_next h x (next (h l)) in set_next h1 l (Some x).

  (** pop_front, lines 406-410 *)
  Definition pop_front (h : heap) (l : loc) : res heap :=
    n <- deref (next (h l)) ;;
    let h1 := set_next h l (next (h n)) in
    Ok (unlink_item h1 n).

  (** insert_after, lines 412-417 *)
  Definition insert_after (h : heap) (pos : ptr) (x : loc) : res (heap * ptr) :=
    p <- deref pos ;;
    let h1 := set_next h x (next (h p)) in
    Ok (set_next h1 p (Some x), Some x).

  (** erase_after, lines 431-436 *)
  Definition erase_after (h : heap) (pos : ptr) : res (heap * ptr) :=
    p <- deref pos ;;
    f <- deref (next (h p)) ;;
    let h1 := set_next h p (next (h f)) in
    let h2 := unlink_item h1 f in
    Ok (h2, next (h2 p)).

  (** erase_after of a range, lines 437-446: the loop *)
  Fixpoint erase_loop (k : nat) (h : heap) (first last : ptr) : res heap :=
    match k with
    | O => Fuel
    | S k' =>
        if it_eq first last then Ok h
        else
          nxt <- it_next h first ;;
          f <- deref first ;;
          erase_loop k' (unlink_item h f) nxt last
    end.
  Definition erase_after_range (k : nat) (h : heap) (pos last : ptr) : res (heap * ptr) :=
    p <- deref pos ;;
    let first := next (h p) in
    let h1 := set_next h p last in
    h2 <- erase_loop k h1 first last ;;
    Ok (h2, last).

  (** clear, lines 451-453 *)
  Definition clear (k : nat) (h : heap) (l : loc) : res heap := unlink_all k h l.

  (** unlink, lines 455-464 *)
  Fixpoint unlink_loop (k : nat) (h : heap) (first : ptr) (x : loc) : res heap :=
    match k with
    | O => Fuel
    | S k' =>
        if it_eq first end_ then Ok h
        else
          nxt <- it_next h first ;;
          if it_eq nxt (Some x) then
            f <- deref first ;;
            n <- deref nxt ;;
            let h1 := set_next h f (next (h n)) in
            Ok (unlink_item h1 n)
          else
            i <- it_next h first ;;
            unlink_loop k' h i x
    end.
  Definition unlink (k : nat) (h : heap) (l x : loc) : res heap :=
    unlink_loop k h (before_begin l) x.

  (** unlink of a range, lines 465-470 *)
  Fixpoint unlink_range (k : nat) (h : heap) (l : loc) (xs : list loc) : res heap :=
    match xs with
    | [] => Ok h
    | x :: xs' => h1 <- unlink k h l x ;; unlink_range k h1 l xs'
    end.

  (** the move constructor, lines 335-337: item has no move constructor (line 271), fst is copied *)
  Definition move_construct (h : heap) (l2 l : loc) : heap := set h l2 (h l).

  (** for (auto& v : list): the values visited *)
  Fixpoint walk (k : nat) (h : heap) (i : ptr) : res (list V) :=
    match k with
    | O => Fuel
    | S k' =>
        if it_eq i end_ then Ok []
        else
          v <- it_get h i ;;
          j <- it_next h i ;;
          vs <- walk k' h j ;;
          Ok (v :: vs)
    end.

  (** One call of a modifying member function on the list [l], as the user writes it: positions
      and items are addresses, [k] bounds the loops. *)
  Inductive call : Type :=
  | PushFront (l x : loc)
  | PopFront (l : loc)
  | InsertAfter (l p x : loc)
  | EraseAfter (l p : loc)
  | EraseRange (l p : loc) (last : ptr)
  | Clear (l : loc)
  | Unlink (l x : loc).

  Definition run (k : nat) (h : heap) (c : call) : res heap :=
    match c with
    | PushFront l x => Ok (push_front h l x)
    | PopFront l => pop_front h l
    | InsertAfter l p x => '(h1, _) <- insert_after h (Some p) x ;; Ok h1
    | EraseAfter l p => '(h1, _) <- erase_after h (Some p) ;; Ok h1
    | EraseRange l p last => '(h1, _) <- erase_after_range k h (Some p) last ;; Ok h1
    | Clear l => clear k h l
    | Unlink l x => unlink k h l x
    end.

  Fixpoint run_all (k : nat) (h : heap) (cs : list call) : res heap :=
    match cs with
    | [] => Ok h
    | c :: cs' => h1 <- run k h c ;; run_all k h1 cs'
    end.

End Clist.

Arguments Item {V} _ _.
Arguments val {V} _.
Arguments next {V} _.
Arguments set {V} _ _ _.
Arguments set_next {V} _ _ _.
Arguments unlink_item {V} _ _.
Arguments unlink_all {V} _ _ _.
Arguments is_linked {V} _ _.
Arguments it_next {V} _ _.
Arguments it_get {V} _ _.
Arguments begin {V} _ _.
Arguments cbefore_begin {V} _ _.
Arguments empty {V} _ _.
Arguments front {V} _ _.
Arguments push_front {V} _ _ _.
Arguments pop_front {V} _ _.
Arguments insert_after {V} _ _ _.
Arguments erase_after {V} _ _.
Arguments erase_loop {V} _ _ _ _.
Arguments erase_after_range {V} _ _ _ _.
Arguments clear {V} _ _ _.
Arguments unlink_loop {V} _ _ _ _.
Arguments unlink {V} _ _ _ _.
Arguments unlink_range {V} _ _ _ _.
Arguments move_construct {V} _ _ _.
Arguments walk {V} _ _ _.
Arguments run {V} _ _ _.
Arguments run_all {V} _ _ _.
