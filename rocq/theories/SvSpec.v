(** What sprout::basic_string_view is supposed to do, in terms of lists of characters. *)
From Coq Require Import List Arith ZArith.
From Verif Require Import Base BstrSpec StrSpec.
Import ListNotations.
Open Scope Z_scope.

(** The view with the members [v] shows the characters [cs]. *)
Definition shows (m : list Z) (v : nat * nat) (cs : list Z) : Prop := text m (fst v) (snd v) cs.

(** [t] is a prefix, a suffix of [s] *)
Definition is_prefix (s t : list Z) : Prop := exists b, s = t ++ b.
Definition is_suffix (s t : list Z) : Prop := exists a, s = a ++ t.

(** the boolean [b] in [r] answers the question [P] *)
Definition answers (r : res (option bool)) (P : Prop) : Prop := exists b, r = Ok (Some b) /\ (b = true <-> P).
