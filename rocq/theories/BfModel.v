(** Model of sprout/brainfuck/brainfuck.hpp.  Nothing is proved in this file.

    The source is a list of character codes, iterators into it are positions; reading outside is
    undefined.  [ct] is the value type of the source (also the cells of the tape), [ot] the value
    type of the output; both are narrower than int, so [buffer.at(pos) + 1] cannot overflow.
    The tape position is a std::size_t of 64 bits.  The scope counters (std::size_t) are natural
    numbers: they never exceed the length of the source.  std::out_of_range is the outcome
    [Throw].  [k] bounds the recursion of exec_impl (one call per executed command). *)
From Coq Require Import List Arith ZArith Bool.
From Verif Require Import Base BitModel ShaModel ByteModel.
Import ListNotations.
Open Scope Z_scope.

(** lines 30-40: find_scope_end; [l] is the source from position [first] on *)
Fixpoint find_scope_end (l : list Z) (first : nat) (count : nat) : res nat :=
  match l with
  | [] => UB
  | c :: l =>
      if c =? 91 then find_scope_end l (S first) (S count)
      else if c =? 93 then
        match count with O => Ok first | S n => find_scope_end l (S first) n end
      else find_scope_end l (S first) count
  end.

(** lines 42-52: find_scope_start; [l] is the source before position [S first], reversed; at
    the beginning of the source prev(first) leaves it *)
Fixpoint find_scope_start (l : list Z) (first : nat) (count : nat) : res nat :=
  match l with
  | [] => UB
  | c :: l =>
      if c =? 93 then find_scope_start l (first - 1) (S count)
      else if c =? 91 then
        match count with O => Ok first | S n => find_scope_start l (first - 1) n end
      else find_scope_start l (first - 1) count
  end.

(** lines 54-66 and 217-224: is_well_formed of the source [l] *)
Fixpoint is_well_formed (l : list Z) (count : nat) : bool :=
  match l with
  | [] => (count =? 0)%nat
  | c :: l =>
      if c =? 91 then is_well_formed l (S count)
      else if c =? 93 then
        match count with O => false | S n => is_well_formed l n end
      else is_well_formed l count
  end.

Inductive bf_out : Type := Done (out : list Z) | Throw.

(** sprout/array/array.hpp 192-196: at(i), std::out_of_range unless i < size() *)
Definition tape_at (buffer : list Z) (pos : Z) : option Z :=
  if (0 <=? pos) && (pos <? Z.of_nat (length buffer)) then nth_error buffer (Z.to_nat pos) else None.

(** sprout/operation/fixed/set.hpp 63-71: next(begin(cont), pos) must be an iterator of the array;
    the elements other than the one there are copied *)
Definition fixed_set (cont : list Z) (pos : Z) (v : Z) : res (list Z) :=
  let p := conv i64 pos in
  if (0 <=? p) && (p <=? Z.of_nat (length cont)) then
    Ok (if p <? Z.of_nat (length cont) then upd cont (Z.to_nat p) v else cont)
  else UB.

(** sprout/algorithm/fixed/copy.hpp 28-62 into an array: the rest keeps its elements *)
Definition fixed_copy (l output : list Z) : list Z :=
  firstn (length output) l ++ skipn (length l) output.

Section Exec.
  Variables (ct ot : ity).
  Variables (src output : list Z).

  (** lines 68-151: exec_impl.  The second test for '+' (line 101) can not succeed. *)
  Fixpoint exec_impl (k : nat) (first : nat) (input : list Z) (buffer out_buffer : list Z)
      (pos : Z) (out_pos : nat) : res bf_out :=
    match k with
    | O => Fuel
    | S k =>
        if Nat.eqb first (length src) then
          Ok (Done (fixed_copy (firstn (Nat.min out_pos (length out_buffer)) out_buffer) output))
        else
          c <- rd src first ;;
          if c =? 62 then exec_impl k (S first) input buffer out_buffer (conv u64 (pos + 1)) out_pos
          else if c =? 60 then exec_impl k (S first) input buffer out_buffer (conv u64 (pos - 1)) out_pos
          else if c =? 43 then
            match tape_at buffer pos with
            | None => Ok Throw
            | Some x =>
                b <- fixed_set buffer pos (conv ct (x + 1)) ;;
                exec_impl k (S first) input b out_buffer pos out_pos
            end
          else if c =? 43 then
            match tape_at buffer pos with
            | None => Ok Throw
            | Some x =>
                b <- fixed_set buffer pos (conv ct (x - 1)) ;;
                exec_impl k (S first) input b out_buffer pos out_pos
            end
          else if c =? 46 then
            if negb (out_pos =? length out_buffer)%nat then
              match tape_at buffer pos with
              | None => Ok Throw
              | Some x =>
                  o <- fixed_set out_buffer (Z.of_nat out_pos) (conv ot x) ;;
                  exec_impl k (S first) input buffer o pos (S out_pos)
              end
            else Ok Throw
          else if c =? 44 then
            match input with
            | [] => Ok Throw
            | x :: input =>
                b <- fixed_set buffer pos (conv ct x) ;;
                exec_impl k (S first) input b out_buffer pos out_pos
            end
          else if c =? 91 then
            match tape_at buffer pos with
            | None => Ok Throw
            | Some x =>
                if x =? 0 then
                  e <- find_scope_end (skipn (S first) src) (S first) 0 ;;
                  exec_impl k (S e) input buffer out_buffer pos out_pos
                else exec_impl k (S first) input buffer out_buffer pos out_pos
            end
          else if c =? 93 then
            match tape_at buffer pos with
            | None => Ok Throw
            | Some x =>
                if negb (x =? 0) then
                  e <- find_scope_start (rev (firstn first src)) (first - 1) 0 ;;
                  exec_impl k (S e) input buffer out_buffer pos out_pos
                else exec_impl k (S first) input buffer out_buffer pos out_pos
            end
          else exec_impl k (S first) input buffer out_buffer pos out_pos
    end.

  (** lines 157-170: exec<BufferSize> with an input range; the arrays start zeroed *)
  Definition bf_exec (k : nat) (BufferSize : nat) (input : list Z) : res bf_out :=
    exec_impl k 0 input (repeat 0 BufferSize) (repeat 0 (length output)) 0 0.
End Exec.
