(** Model of the discrete Fourier transforms of sprout/numeric/dft and sprout/numeric/fft, over the
    complex numbers of CqModel.  Nothing is proved here.

    The component type T and its operations are parameters, as in CqModel, together with cos, sin,
    the two constants and the conversion from an integer that the code uses.  The theorems take T
    to be the real numbers, so they say nothing about rounding.

    An index of type difference_type or size_t is a natural number here: none of the code below
    makes one negative, and they are bounded by twice the number of elements, whose overflow is not
    modelled.  The array is a list, reads and writes outside it are UB. *)
From Coq Require Import List Bool Arith.
From Verif Require Import Base CqModel.
Import ListNotations.

(** sprout::cos, sprout::sin, sprout::math::half_pi, two_pi and static_cast<T>(n) *)
Record trig (T : Type) : Type := Trig {
  tcos : T -> T; tsin : T -> T; half_pi : T; two_pi : T; of_nat : nat -> T
}.
Arguments tcos {T} _ _.
Arguments tsin {T} _ _.
Arguments half_pi {T} _.
Arguments two_pi {T} _.
Arguments of_nat {T} _ _.

Section Fft.
  Context {T : Type} (K : ops T) (G : trig T).

  Declare Scope fft_scope.
  Delimit Scope fft_scope with T.
  Local Notation "x + y" := (tadd K x y) : fft_scope.
  Local Notation "x - y" := (tsub K x y) : fft_scope.
  Local Notation "x * y" := (tmul K x y) : fft_scope.
  Local Notation "x / y" := (tdiv K x y) : fft_scope.
  Local Notation "- x" := (tneg K x) : fft_scope.

  (** ** sprout::fft(first, last), numeric/fft/cxx14/fft.hpp 23-134 *)

  (** lines 34 and 93: for (k = size >> 1; k > (i ^= k); k >>= 1) ; *)
  Fixpoint rev_step (f k i : nat) : res nat :=
    match f with
    | O => Fuel
    | S f' =>
        let i := Nat.lxor i k in
        if i <? k then rev_step f' (k / 2) i else Ok i
    end.

  (** sprout::swap(first[i], first[j]), line 37 *)
  Definition swap_at (l : list (cplx T)) (i j : nat) : res (list (cplx T)) :=
    a <- rd l i ;;
    b <- rd l j ;;
    l <- wr l i b ;;
    wr l j a.

  (** the scrambler, lines 33-39 *)
  Fixpoint scramble (f size i j : nat) (l : list (cplx T)) : res (list (cplx T)) :=
    match f with
    | O => Fuel
    | S f' =>
        if j <? size - 1 then
          i <- rev_step f' (size / 2) i ;;
          l <- (if j <? i then swap_at l i j else Ok l) ;;
          scramble f' size i (j + 1) l
        else Ok l
    end.

  (** The body of the innermost loops, lines 47-61, 71-89 and 101-119.  The three copies differ only
      in what they store to first[j1] and first[j3]: [g1 x0r x0i] and [g3 x0r x0i], where x0r and
      x0i are the components of x1 + i x3 for g1 and of x1 - i x3 for g3. *)
  Definition lshape (g1 g3 : T -> T -> cplx T) (mq j : nat) (l : list (cplx T))
    : res (list (cplx T)) :=
    let j1 := (j + mq)%nat in
    let j2 := (j1 + mq)%nat in
    let j3 := (j2 + mq)%nat in
    a <- rd l j ;;
    b <- rd l j1 ;;
    let x1 := c_sub K a b in
    l <- wr l j (c_add K a b) ;;
    d <- rd l j3 ;;
    c <- rd l j2 ;;
    let x3 := c_sub K d c in
    l <- wr l j2 (c_add K c d) ;;
    l <- wr l j1 (g1 (re x1 - im x3) (im x1 + re x3))%T ;;
    wr l j3 (g3 (re x1 + im x3) (im x1 - re x3))%T.

  (** the innermost loop: j from j to e, lines 46, 70, 100 and 127 *)
  Fixpoint j_loop (f : nat) (body : nat -> list (cplx T) -> res (list (cplx T))) (j e : nat)
    (l : list (cplx T)) : res (list (cplx T)) :=
    match f with
    | O => Fuel
    | S f' =>
        if j <? e then l <- body j l ;; j_loop f' body (j + 1) e l else Ok l
    end.

  (** the loop over k, lines 45, 69, 99 and 126; i is 0, m, i and 0 *)
  Fixpoint k_loop (f : nat) (body : nat -> list (cplx T) -> res (list (cplx T))) (i mq k : nat)
    (l : list (cplx T)) : res (list (cplx T)) :=
    match f with
    | O => Fuel
    | S f' =>
        if 1 <=? k then
          l <- j_loop f' body (i + mq - k) (i + mq - k / 2) l ;;
          k_loop f' body i mq (k / 4) l
        else Ok l
    end.

  (** what the three copies store: lines 54-61, 80-89 and 110-119 *)
  Definition g_one (x0r x0i : T) : cplx T := Cx x0r x0i.
  Definition g_eighth (w1r x0r x0i : T) : cplx T := Cx (w1r * (x0r + x0i))%T (w1r * (x0i - x0r))%T.
  Definition g_eighth3 (w1r x0r x0i : T) : cplx T :=
    Cx (w1r * (- x0r + x0i))%T (w1r * (- x0i - x0r))%T.
  Definition g_tw (wr wi x0r x0i : T) : cplx T :=
    Cx (wr * x0r - wi * x0i)%T (wr * x0i + wi * x0r)%T.

  (** the loop over i, lines 92-122 *)
  Fixpoint i_loop (f : nat) (theta : T) (size m i irev : nat) (l : list (cplx T))
    : res (list (cplx T)) :=
    match f with
    | O => Fuel
    | S f' =>
        if i <? size then
          irev <- rev_step f' (size / 2) irev ;;
          let w1r := tcos G (theta * of_nat G irev)%T in
          let w1i := tsin G (theta * of_nat G irev)%T in
          let w3r := tcos G (theta * of_nat G 3 * of_nat G irev)%T in
          let w3i := tsin G (theta * of_nat G 3 * of_nat G irev)%T in
          l <- k_loop f' (lshape (g_tw w1r w1i) (g_tw w3r w3i) (m / 4)) i (m / 4) (m / 4) l ;;
          i_loop f' theta size m (i + m) irev l
        else Ok l
    end.

  (** the loop over m, lines 42-123 *)
  Fixpoint m_loop (f : nat) (theta : T) (size m : nat) (l : list (cplx T)) : res (list (cplx T)) :=
    match f with
    | O => Fuel
    | S f' =>
        if m <=? size then
          let mq := m / 4 in
          l <- k_loop f' (lshape g_one g_one mq) 0 mq mq l ;;
          if m =? size then m_loop f' theta size (m * 2) l
          else
            let irev := size / 2 in
            let w1r := tcos G (theta * of_nat G irev)%T in
            l <- k_loop f' (lshape (g_eighth w1r) (g_eighth3 w1r) mq) m mq mq l ;;
            l <- i_loop f' theta size m (2 * m) irev l ;;
            m_loop f' theta size (m * 2) l
        else Ok l
    end.

  (** the body of the last loop, lines 128-131 *)
  Definition radix2 (mq j : nat) (l : list (cplx T)) : res (list (cplx T)) :=
    let j1 := (mq + j)%nat in
    a <- rd l j ;;
    b <- rd l j1 ;;
    let x0 := c_sub K a b in
    l <- wr l j (c_add K a b) ;;
    wr l j1 x0.

  Definition fft (f : nat) (l : list (cplx T)) : res (list (cplx T)) :=
    let size := length l in
    l <- scramble f size 0 1 l ;;
    let theta := (- (half_pi G / of_nat G size))%T in
    l <- m_loop f theta size 4 l ;;
    k_loop f (radix2 (size / 2)) 0 (size / 2) (size / 2) l.

  (** sprout::ifft(first, last), numeric/fft/cxx14/ifft.hpp 19-55; transform is the in-place
      map *)
  Definition ifft (f : nat) (l : list (cplx T)) : res (list (cplx T)) :=
    let n := length l in
    l <- fft f (map (c_conj K) l) ;;
    Ok (map (fun x => c_div_t K (c_conj K x) (of_nat G n)) l).

  (** ** sprout::dft_element, numeric/dft/detail/dft_element_gen.hpp *)

  (** dft_element_gen_impl_ra, lines 20-40 *)
  Fixpoint gen_ra (d : nat) (l : list (cplx T)) (first last : nat) (arg : T) (pivot k : nat)
    : res (cplx T) :=
    match d with
    | O => Fuel
    | S d' =>
        if pivot =? 0 then
          x <- rd l first ;;
          Ok (c_mul K x (Cx (tcos G (arg * of_nat G k)%T) (tsin G (arg * of_nat G k)%T)))
        else
          a <- gen_ra d' l first (first + pivot) arg (pivot / 2) k ;;
          b <- gen_ra d' l (first + pivot) last arg ((last - first - pivot) / 2) (k + pivot) ;;
          Ok (c_add K a b)
    end.
  (** dft_element_gen_impl_1, lines 55-79 *)
  Fixpoint gen_1 (d : nat) (l : list (cplx T)) (first last : nat) (arg : T) (k : nat)
    (value : cplx T) (theta : T) : res (cplx T) :=
    match d with
    | O => Fuel
    | S d' =>
        if first =? last then Ok value
        else
          x <- rd l first ;;
          r <- gen_1 d' l (first + 1) last arg (k + 1)
                 (c_mul K x (Cx (tcos G theta) (tsin G theta))) (arg * of_nat G (k + 1))%T ;;
          Ok (c_add K value r)
    end.
  (** dft_element_gen over the whole range, lines 41-53 and 80-100; [ra]: the iterators are random
      access iterators *)
  Definition dft_gen (ra : bool) (d : nat) (l : list (cplx T)) (arg : T) : res (cplx T) :=
    if ra then
      if 0 =? length l then Ok (Cx (t0 K) (t0 K))
      else gen_ra d l 0 (length l) arg (length l / 2) 0
    else gen_1 d l 0 (length l) arg 0 (Cx (t0 K) (t0 K)) (t0 K).

  (** dft_element_impl, numeric/dft/dft_element.hpp 19-32; dft_element, 37-44 *)
  Definition dft_element_impl (ra : bool) (d : nat) (l : list (cplx T)) (i size : nat)
    : res (cplx T) :=
    dft_gen ra d l (- (two_pi G * of_nat G i / of_nat G size))%T.
  Definition dft_element (ra : bool) (d : nat) (l : list (cplx T)) (i : nat) : res (cplx T) :=
    dft_element_impl ra d l i (length l).
  (** idft_element_impl, numeric/dft/idft_element.hpp 19-34; idft_element, 39-46 *)
  Definition idft_element_impl (ra : bool) (d : nat) (l : list (cplx T)) (i size : nat)
    : res (cplx T) :=
    z <- dft_gen ra d l (two_pi G * of_nat G i / of_nat G size)%T ;;
    Ok (c_div_t K z (of_nat G size)).
  Definition idft_element (ra : bool) (d : nat) (l : list (cplx T)) (i : nat) : res (cplx T) :=
    idft_element_impl ra d l i (length l).

  (** ** sprout::fixed::dft and idft into an array (numeric/dft/fixed/dft.hpp and idft.hpp)

      [elem] is dft_element_impl or idft_element_impl with its range.  The result is an array, so
      its size is its static size and its offset 0. *)

  (** dft_impl_ra, lines 29-46 *)
  Fixpoint dft_ra (elem : nat -> nat -> res (cplx T)) (result : list (cplx T)) (input_size : nat)
    (indexes : list nat) : res (list (cplx T)) :=
    match indexes with
    | [] => Ok []
    | i :: is =>
        x <- (if (i <? length result) && (i <? input_size) then elem i input_size
              else rd result i) ;;
        r <- dft_ra elem result input_size is ;;
        Ok (x :: r)
    end.
  (** dft_impl, lines 63-96; container_complate appends what remains of the result *)
  Fixpoint dft_fw (d : nat) (elem : nat -> nat -> res (cplx T)) (result : list (cplx T))
    (size first last i : nat) (args : list (cplx T)) : res (list (cplx T)) :=
    match d with
    | O => Fuel
    | S d' =>
        if length result =? length args then Ok args
        else if negb (first =? last) && (length args <? size) then
          x <- elem i size ;;
          dft_fw d' elem result size (first + 1) last (i + 1) (args ++ [x])
        else Ok (args ++ skipn (length args) result)
    end.
  (** dft, lines 47-61, 97-105 and 133-137 *)
  Definition fixed_transform (ra : bool) (d : nat) (elem : nat -> nat -> res (cplx T))
    (l result : list (cplx T)) : res (list (cplx T)) :=
    if ra then dft_ra elem result (length l) (seq 0 (length result))
    else dft_fw d elem result (length result) 0 (length l) 0 [].
  Definition fixed_dft (ra : bool) (d : nat) (l result : list (cplx T)) : res (list (cplx T)) :=
    fixed_transform ra d (dft_element_impl ra d l) l result.
  Definition fixed_idft (ra : bool) (d : nat) (l result : list (cplx T)) : res (list (cplx T)) :=
    fixed_transform ra d (idft_element_impl ra d l) l result.

  (** ** sprout::fixed::fft, numeric/fft/fixed/fft.hpp

      Size is 2 to the p: for any other Size make_fft_coefficients (numeric/fft/coefficients.hpp
      69-78) does not compile, because the array of 1 << (bit_length(Size) - 1) elements does not
      convert to the array of Size elements it returns. *)

  (** make_fft_coefficients_loop, coefficients.hpp 23-61 *)
  Fixpoint coeffs_loop (n p : nat) (inverse : bool) : list (cplx T) :=
    match n with
    | O => [Cx (t1 K) (t0 K)]
    | S n' =>
        let arr := coeffs_loop n' p inverse in
        let sign := if inverse then (- t1 K)%T else t1 K in
        let angle := (sign * two_pi G / of_nat G (2 ^ p / 2 ^ n'))%T in
        arr ++ map (fun z => c_mul K z (Cx (tcos G angle) (tsin G angle))) arr
    end.
  Definition coeffs (p : nat) (inverse : bool) : list (cplx T) := coeffs_loop p p inverse.

  (** fft_element, fft.hpp 23-35 *)
  Definition fft_elem (size : nat) (arr : list (cplx T)) (step i j : nat) (sub : bool)
    (cs : list (cplx T)) : res (cplx T) :=
    a <- rd arr (i * step + j) ;;
    c <- rd cs (j * (size / 2 / step)) ;;
    b <- rd arr (i * step + j + size / 2) ;;
    Ok (if sub then c_sub K a (c_mul K c b) else c_add K a (c_mul K c b)).
  (** butterfly, 37-49 *)
  Fixpoint butterfly (size : nat) (arr : list (cplx T)) (step : nat) (cs : list (cplx T))
    (indexes : list nat) : res (list (cplx T)) :=
    match indexes with
    | [] => Ok []
    | x :: xs =>
        y <- fft_elem size arr step (x / (step * 2)) (x mod step)
               (negb (Nat.land x step =? 0)) cs ;;
        r <- butterfly size arr step cs xs ;;
        Ok (y :: r)
    end.
  (** fft_loop, 51-61 *)
  Fixpoint fft_loop (d size : nat) (arr : list (cplx T)) (step : nat) (cs : list (cplx T))
    : res (list (cplx T)) :=
    match d with
    | O => Fuel
    | S d' =>
        if step =? size then Ok arr
        else
          arr <- butterfly size arr step cs (seq 0 size) ;;
          fft_loop d' size arr (step * 2) cs
    end.
  (** make_input, 70-84 *)
  Definition make_input (size : nat) (cont : list (cplx T)) : list (cplx T) :=
    map (fun i => if i <? length cont then nth i cont (Cx (t0 K) (t0 K)) else Cx (t0 K) (t0 K))
      (seq 0 size).
  (** fft(cont, result), 85-106; the elements of the old result are not used *)
  Definition fixed_fft (d p : nat) (cont : list (cplx T)) : res (list (cplx T)) :=
    fft_loop d (2 ^ p) (make_input (2 ^ p) cont) 1 (coeffs p false).
  (** detail::ifft and make_ifft_result, fixed/ifft.hpp 22-37.  sprout::fixed::ifft itself (43-59)
      does not compile: it calls make_input with two iterators. *)
  Definition fixed_ifft (d p : nat) (arr : list (cplx T)) : res (list (cplx T)) :=
    r <- fft_loop d (2 ^ p) arr 1 (coeffs p true) ;;
    Ok (map (fun x => c_div_t K x (of_nat G (2 ^ p))) r).
End Fft.
