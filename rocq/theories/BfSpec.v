(** The language: programs as trees, their text, and their meaning. *)
From Coq Require Import List Arith ZArith Bool.
From Verif Require Import BitModel.
Import ListNotations.
Open Scope Z_scope.

Inductive bf_cmd : Type := Right | Left | Inc | Dec | Out | Read | Other (c : Z).
Inductive prog : Type :=
| End
| Cmd (c : bf_cmd) (p : prog)
| Loop (body p : prog).

(** > < + - . , [ ] *)
Definition commands : list Z := [62; 60; 43; 45; 46; 44; 91; 93].

Definition cmd_char (c : bf_cmd) : Z :=
  match c with Right => 62 | Left => 60 | Inc => 43 | Dec => 45 | Out => 46 | Read => 44 | Other x => x end.
Fixpoint text (p : prog) : list Z :=
  match p with
  | End => []
  | Cmd c p => cmd_char c :: text p
  | Loop b p => 91 :: text b ++ 93 :: text p
  end.
(** comments contain no command characters *)
Fixpoint proper (p : prog) : Prop :=
  match p with
  | End => True
  | Cmd (Other x) p => ~ In x commands /\ proper p
  | Cmd _ p => proper p
  | Loop b p => proper b /\ proper p
  end.
Fixpoint without_dec (p : prog) : Prop :=
  match p with
  | End => True
  | Cmd Dec p => False
  | Cmd _ p => without_dec p
  | Loop b p => without_dec b /\ without_dec p
  end.

(** The balanced texts *)
Inductive balanced : list Z -> Prop :=
| bal_nil : balanced []
| bal_char c w : c <> 91 -> c <> 93 -> balanced w -> balanced (c :: w)
| bal_loop u v : balanced u -> balanced v -> balanced (91 :: u ++ 93 :: v).

(** The machine: a tape, the position of the head (a std::size_t), the input still to be read and
    the output so far *)
Record bf_state : Type := BfState { tape : list Z; head : Z; inp : list Z; outp : list Z }.
(** Ended normally; ended with an error the language reports: the head was off the tape when
    the cell was used, the input was exhausted, the output full; or read input to a cell off the
    tape, about which nothing is said. *)
Inductive bf_end : Type := Norm (s : bf_state) | Err | Off.

Section Meaning.
  Variables (cell_type out_type : ity) (capacity : nat).

  Definition cell (s : bf_state) : option Z :=
    if head s <? Z.of_nat (length (tape s)) then nth_error (tape s) (Z.to_nat (head s)) else None.
  Definition put (s : bf_state) (v : Z) : list Z :=
    firstn (Z.to_nat (head s)) (tape s) ++ v :: skipn (S (Z.to_nat (head s))) (tape s).

  Definition step (c : bf_cmd) (s : bf_state) : bf_end :=
    match c with
    | Right => Norm (BfState (tape s) ((head s + 1) mod 2 ^ 64) (inp s) (outp s))
    | Left => Norm (BfState (tape s) ((head s - 1) mod 2 ^ 64) (inp s) (outp s))
    | Inc => match cell s with
             | Some x => Norm (BfState (put s (conv cell_type (x + 1))) (head s) (inp s) (outp s))
             | None => Err
             end
    | Dec => match cell s with
             | Some x => Norm (BfState (put s (conv cell_type (x - 1))) (head s) (inp s) (outp s))
             | None => Err
             end
    | Out => match cell s with
             | Some x => if (length (outp s) <? capacity)%nat
                         then Norm (BfState (tape s) (head s) (inp s) (outp s ++ [conv out_type x]))
                         else Err
             | None => Err
             end
    | Read => match inp s with
            | [] => Err
            | x :: r => match cell s with
                        | Some _ => Norm (BfState (put s (conv cell_type x)) (head s) r (outp s))
                        | None => Off
                        end
            end
    | Other _ => Norm s
    end.

  Inductive run : prog -> bf_state -> bf_end -> Prop :=
  | run_end s : run End s (Norm s)
  | run_cmd c p s s1 o : step c s = Norm s1 -> run p s1 o -> run (Cmd c p) s o
  | run_cmd_err c p s : step c s = Err -> run (Cmd c p) s Err
  | run_cmd_off c p s : step c s = Off -> run (Cmd c p) s Off
  | run_loop_out b p s o : cell s = Some 0 -> run p s o -> run (Loop b p) s o
  | run_loop_in b p s x s1 o : cell s = Some x -> x <> 0 -> run b s (Norm s1) -> run (Loop b p) s1 o ->
      run (Loop b p) s o
  | run_loop_stop b p s x o : cell s = Some x -> x <> 0 -> run b s o -> (forall s1, o <> Norm s1) ->
      run (Loop b p) s o
  | run_loop_err b p s : cell s = None -> run (Loop b p) s Err.

  Definition start (cells : nat) (input : list Z) : bf_state := BfState (repeat 0 cells) 0 input [].
End Meaning.

(** A program in which every '-' is a comment *)
Fixpoint strike_dec (p : prog) : prog :=
  match p with
  | End => End
  | Cmd Dec p => Cmd (Other 45) (strike_dec p)
  | Cmd c p => Cmd c (strike_dec p)
  | Loop b p => Loop (strike_dec b) (strike_dec p)
  end.
