(** The translations into Brainfuck, as the weed parsers they are. *)
From Coq Require Import List Arith Bool ZArith.
From Verif Require Import Base BitModel WordModel CharModel WeedModel BfModel.
Import ListNotations.
Local Open Scope Z_scope.

(** a | b | c ... is left associative *)
Definition alts (l : list pexp) : pexp := match l with [] => EPrim PEps | e :: l => fold_left EAlt l e end.
(** replace(c)[e] for each entry, then replace(' ')[char_] *)
Definition token (l : list (Z * pexp)) : pexp :=
  alts (map (fun p => EReplace (VChar (fst p)) (snd p)) l ++ [EReplace (VChar 32) (EPrim PAny)]).

(** sprout/brainfuck/ook.hpp 38-55: "Ook." >> *space_ >> "Ook?" and so on; the operator is shift_left of
    WeedModel.v.  The replacement is '>' on every line, as in the code. *)
Definition ook_text (p : Z) : pexp := XStr [79; 111; 111; 107; p].
Definition ook_pair (p q : Z) : pexp := ESeq (ESeq (ook_text p) (EStar (EPrim (PClass isspace true)))) (ook_text q).
Definition ook_table : list (Z * pexp) :=
  [(62, ook_pair 46 63); (62, ook_pair 63 46); (62, ook_pair 46 46); (62, ook_pair 33 33);
   (62, ook_pair 33 46); (62, ook_pair 46 33); (62, ook_pair 33 63); (62, ook_pair 63 33)].

(** sprout/brainfuck/misa.hpp 41-58, with the bytes as unsigned numbers.  "\x81\5B" is 0x81, 0x05, 'B'. *)
Definition misa_entry (c : Z) (l : list (list Z)) : Z * pexp := (c, alts (EPrim (PLitChar c) :: map XStr l)).
Definition misa_table : list (Z * pexp) :=
  [misa_entry 62 [[129; 168]; [129; 96]; [129; 5; 66]];
   misa_entry 60 [[129; 169]; [129; 154]; [129; 153]];
   misa_entry 43 [[130; 160]; [130; 159]; [130; 168]; [130; 167]];
   misa_entry 45 [[130; 193]; [131; 98]];
   misa_entry 46 [[129; 73]];
   misa_entry 44 [[129; 72]];
   misa_entry 91 [[129; 117]; [129; 119]];
   misa_entry 93 [[129; 118]; [129; 120]]].

(** ook.hpp 33-60, misa.hpp 33-63 with detail/convert.hpp 19-32; the result is an array. *)
Definition to_brainfuck (table : list (Z * pexp)) (d k : nat) (s result : list Z) : res (list Z * bool) :=
  r <- parse s d k (fun t radix => match WordModel.integer_digits t radix with Ok n => n | _ => 0 end)
         (EStar (ELim (length result) Discard (token table))) ;;
  Ok (if ok r then (fixed_copy (join_val (at_ r)) result, true) else (result, false)).
Definition ook_to_brainfuck := to_brainfuck ook_table.
Definition misa_to_brainfuck := to_brainfuck misa_table.
