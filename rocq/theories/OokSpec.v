(** Translation of words, from left to right; what is not a word becomes a space. *)
From Coq Require Import List Arith Bool ZArith.
From Verif Require Import CharSpec.
Import ListNotations.
Local Open Scope Z_scope.

Inductive translated (word : list Z -> Z -> Prop) : list Z -> list Z -> Prop :=
| tr_end : translated word [] []
| tr_word w c rest out : word w c -> translated word rest out -> translated word (w ++ rest) (c :: out)
| tr_skip b rest out : (forall w c r, word w c -> b :: rest <> w ++ r) -> translated word rest out ->
    translated word (b :: rest) (32 :: out).

(** Ook!: two of the words "Ook.", "Ook?", "Ook!", maybe with space between them *)
Definition ook_commands : list (Z * Z * Z) :=
  [(46, 63, 62); (63, 46, 60); (46, 46, 43); (33, 33, 45); (33, 46, 46); (46, 33, 44); (33, 63, 91); (63, 33, 93)].
Definition ook (p : Z) : list Z := [79; 111; 111; 107; p].
Definition ook_word (w : list Z) (c : Z) : Prop :=
  exists p q sp, In (p, q, c) ook_commands /\ Forall Space sp /\ w = ook p ++ sp ++ ook q.

(** Misa, in Shift_JIS; 0x81 0x5B is the long vowel mark *)
Definition misa_words : list (list Z * Z) :=
  [([62], 62); ([129; 168], 62); ([129; 96], 62); ([129; 91], 62);
   ([60], 60); ([129; 169], 60); ([129; 154], 60); ([129; 153], 60);
   ([43], 43); ([130; 160], 43); ([130; 159], 43); ([130; 168], 43); ([130; 167], 43);
   ([45], 45); ([130; 193], 45); ([131; 98], 45);
   ([46], 46); ([129; 73], 46); ([44], 44); ([129; 72], 44);
   ([91], 91); ([129; 117], 91); ([129; 119], 91); ([93], 93); ([129; 118], 93); ([129; 120], 93)].
Definition misa_word (w : list Z) (c : Z) : Prop := In (w, c) misa_words.

Definition occurs (w s : list Z) : Prop := exists pre post, s = pre ++ w ++ post.

(** an array [result] with the beginning replaced *)
Definition filled (l result : list Z) : list Z := firstn (length result) l ++ skipn (length l) result.
