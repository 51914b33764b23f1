(* Interpolation, quadrature, Array2D, DenseMatrix::leftMult and BandMatrix. *)
From Coq Require Import String Reals List Bool Arith.
From Verif Require Import Base.Outcome Base.Fp.
Import ListNotations.
Local Open Scope R_scope.

(* Reading and writing an element of std::vector<double>; out of range is
   undefined. *)
Definition rd (l : list R) (i : nat) : outcome R :=
  match nth_error l i with Some v => Ok v | None => UB end.
Fixpoint set_nth (l : list R) (i : nat) (v : R) : list R :=
  match l, i with
  | [], _ => []
  | _ :: l', O => v :: l'
  | x :: l', S i' => x :: set_nth l' i' v
  end.
Definition wr (l : list R) (i : nat) (v : R) : outcome (list R) :=
  if Nat.ltb i (length l) then Ok (set_nth l i v) else UB.
Definition back (l : list R) : outcome R :=
  match rev l with [] => UB | x :: _ => Ok x end.

(* std::vector::resize(n, v) *)
Definition vresize (n : nat) (v : R) (l : list R) : list R :=
  firstn n l ++ repeat v (n - length l).

(* ---------------------------------------------------------------- *)
(** * src/numerics/funcs.cpp *)

Definition fleb (a b : fp) : bool := fltb a b || feqb a b.

(* std::lower_bound on a sorted range: the first element that is not less than
   x. *)
Fixpoint lower_bound (x : fp) (l : list R) : nat :=
  match l with
  | [] => O
  | y :: l' => if fltb (Fin y) x then S (lower_bound x l') else O
  end.

(* linearInterp, funcs.cpp:13-28.  The argument may be any double. *)
Definition linearInterp (x : fp) (xpts fpts : list R) : outcome fp :=
  obind (rd xpts 0) (fun x0 =>
  if fleb x (Fin x0) then omap Fin (rd fpts 0) else
  obind (back xpts) (fun xl =>
  if fleb (Fin xl) x then omap Fin (back fpts) else
  match lower_bound x xpts with
  | O => UB                                                     (* iloc = -1 *)
  | S i =>
      obind (rd fpts i) (fun fi =>
      obind (rd xpts i) (fun xi =>
      obind (rd fpts (S i)) (fun fj =>
      obind (rd xpts (S i)) (fun xj =>
        Ok (fadd (Fin fi)
             (fdiv (fmul (fsub x (Fin xi)) (Fin (fj - fi))) (Fin (xj - xi))))))))
  end)).

(* v.tail(n-1) - v.head(n-1), and with +. *)
Fixpoint diffs (l : list R) : list R :=
  match l with
  | a :: ((b :: _) as t) => (b - a) :: diffs t
  | _ => []
  end.
Fixpoint pair_sums (l : list R) : list R :=
  match l with
  | a :: ((b :: _) as t) => (b + a) :: pair_sums t
  | _ => []
  end.
Fixpoint dot (a b : list R) : R :=
  match a, b with
  | x :: a', y :: b' => x * y + dot a' b'
  | _, _ => 0
  end.

(* (v <= 0).any() *)
Definition any_nonpos (l : list R) : bool := existsb (fun h => negb (rltb 0 h)) l.

(* trapezoidal, funcs.cpp:30-47.  Taking the tail of an empty vector with length
   -1 violates Eigen's precondition. *)
Definition trapezoidal (f x : list R) : outcome R :=
  if negb (Nat.eqb (length f) (length x)) then Err
  else match f with
  | [] => UB
  | _ => if any_nonpos (diffs x) then Err else Ok (dot (pair_sums f) (diffs x) / 2)
  end.

(* The term of basicSimpson's loop, funcs.cpp:74-82. *)
Definition simpson_term (f x : list R) (i : nat) : R :=
  let h0 := nth i x 0 - nth (i - 1) x 0 in
  let h1 := nth (S i) x 0 - nth i x 0 in
  let hph := h1 + h0 in
  let hdh := h1 / h0 in
  let hmh := h1 * h0 in
  hph / 6 * ((2 - hdh) * nth (i - 1) f 0 + hph ^ 2 / hmh * nth i f 0 +
             (2 - 1 / hdh) * nth (S i) f 0).

(* basicSimpson, funcs.cpp:60-84; i runs over 1, 3, ..., N - 1. *)
Definition basicSimpson (f x : list R) : outcome R :=
  if Nat.ltb (length f) 2 then Err
  else if Nat.even (length f) then Err
  else Ok (fold_left (fun s k => s + simpson_term f x (2 * k + 1))
             (seq 0 ((length f - 1) / 2)) 0).

(* simpson, funcs.cpp:86-111. *)
Definition simpson (f x : list R) : outcome R :=
  match x with
  | [] => UB
  | _ =>
      if any_nonpos (diffs x) then Err
      else if negb (Nat.eqb (length f) (length x)) then Err
      else if Nat.odd (length f) then basicSimpson f x
      else if Nat.eqb (length f) 2 then
        Ok (0.5 * nth 0 (diffs x) 0 * (nth 1 f 0 + nth 0 f 0))
      else
        let N := (length f - 1)%nat in
        obind (basicSimpson (firstn N f) (firstn N x)) (fun headSimps =>
          Ok (headSimps + 0.5 * nth (N - 1) (diffs x) 0 * (nth N f 0 + nth (N - 1) f 0)))
  end.

(* numericalQuadrature, funcs.cpp:113-127. *)
Definition numericalQuadrature (method : string) (f x : list R) : outcome R :=
  if String.eqb method "simpson" then simpson f x
  else if String.eqb method "trapezoidal" then trapezoidal f x
  else Err.

(* ---------------------------------------------------------------- *)
(** * Array2D, include/cantera/base/Array.h and src/base/Array.cpp *)

Record arr2 := Arr2 { a_data : list R; a_nr : nat; a_nc : nat }.

(* Array2D(m, n, v), Array.cpp:15-20. *)
Definition arr_new (m n : nat) (v : R) : arr2 := Arr2 (repeat v (n * m)) m n.

(* value(i,j), Array.h:155-157 and 166-168. *)
Definition arr_get (a : arr2) (i j : nat) : outcome R := rd (a_data a) (a_nr a * j + i).
Definition arr_set (a : arr2) (i j : nat) (v : R) : outcome arr2 :=
  omap (fun d => Arr2 d (a_nr a) (a_nc a)) (wr (a_data a) (a_nr a * j + i) v).

(* resize, Array.cpp:48-53. *)
Definition arr_resize (a : arr2) (n m : nat) (v : R) : arr2 :=
  Arr2 (vresize (n * m) v (a_data a)) n m.

(* The loops write one element after the other. *)
Fixpoint write_all (l : list (nat * R)) (d : list R) : outcome (list R) :=
  match l with
  | [] => Ok d
  | (k, v) :: l' => obind (wr d k v) (write_all l')
  end.
Fixpoint read_all (l : list nat) (d : list R) : outcome (list R) :=
  match l with
  | [] => Ok []
  | k :: l' => obind (rd d k) (fun v => omap (cons v) (read_all l' d))
  end.

(* appendColumn, Array.cpp:55-71: m_ncols is incremented first. *)
Definition appendColumn (a : arr2) (c : list R) : outcome arr2 :=
  let nc := S (a_nc a) in
  let d := vresize (a_nr a * nc) 0 (a_data a) in
  obind (read_all (seq 0 (a_nr a)) c) (fun c =>
  omap (fun d => Arr2 d (a_nr a) nc)
    (write_all (map (fun m => ((a_nr a * m + nc)%nat, nth m c 0)) (seq 0 (a_nr a))) d)).

(* setRow, getRow, setColumn, getColumn, Array.cpp:73-99. *)
Definition setRow (a : arr2) (n : nat) (rw : nat -> R) : outcome arr2 :=
  omap (fun d => Arr2 d (a_nr a) (a_nc a))
    (write_all (map (fun j => ((a_nr a * j + n)%nat, rw j)) (seq 0 (a_nc a))) (a_data a)).
Definition getRow (a : arr2) (n : nat) : outcome (list R) :=
  read_all (map (fun j => (a_nr a * j + n)%nat) (seq 0 (a_nc a))) (a_data a).
Definition setColumn (a : arr2) (m : nat) (col : nat -> R) : outcome arr2 :=
  omap (fun d => Arr2 d (a_nr a) (a_nc a))
    (write_all (map (fun i => ((a_nr a * m + i)%nat, col i)) (seq 0 (a_nr a))) (a_data a)).
Definition getColumn (a : arr2) (m : nat) : outcome (list R) :=
  read_all (map (fun i => (a_nr a * m + i)%nat) (seq 0 (a_nr a))) (a_data a).

(* zero(), Array.h:122-124; operator*=, Array.cpp:115-118. *)
Definition arr_zero (a : arr2) : arr2 :=
  Arr2 (repeat 0 (length (a_data a))) (a_nr a) (a_nc a).
Definition arr_scale (a : arr2) (c : R) : arr2 :=
  Arr2 (map (fun x => x * c) (a_data a)) (a_nr a) (a_nc a).

(* A sum accumulated over reads. *)
Fixpoint osum (f : nat -> outcome R) (l : list nat) (acc : R) : outcome R :=
  match l with
  | [] => Ok acc
  | k :: l' => obind (f k) (fun v => osum f l' (acc + v))
  end.
Fixpoint omapM {A B} (f : A -> outcome B) (l : list A) : outcome (list B) :=
  match l with
  | [] => Ok []
  | x :: l' => obind (f x) (fun v => omap (cons v) (omapM f l'))
  end.

(* DenseMatrix::leftMult, src/numerics/DenseMatrix.cpp:114-123. *)
Definition dense_leftMult (a : arr2) (b : nat -> R) : outcome (list R) :=
  omapM (fun n => osum (fun i => omap (fun v => v * b i) (arr_get a i n)) (seq 0 (a_nr a)) 0)
        (seq 0 (a_nc a)).

(* Calls changing an array. *)
Inductive aop :=
| ASet (i j : nat) (v : R)
| AResize (n m : nat) (v : R)
| ASetRow (n : nat) (rw : nat -> R)
| ASetColumn (m : nat) (col : nat -> R)
| AZero
| AScale (c : R).
Definition astep (a : arr2) (o : aop) : outcome arr2 :=
  match o with
  | ASet i j v => arr_set a i j v
  | AResize n m v => Ok (arr_resize a n m v)
  | ASetRow n rw => setRow a n rw
  | ASetColumn m col => setColumn a m col
  | AZero => Ok (arr_zero a)
  | AScale c => Ok (arr_scale a c)
  end.
Fixpoint arun (ops : list aop) (a : arr2) : outcome arr2 :=
  match ops with [] => Ok a | o :: ops' => obind (astep a o) (arun ops') end.

(* ---------------------------------------------------------------- *)
(** * BandMatrix, src/numerics/BandMatrix.cpp *)

(* Members: data, m_n, m_kl, m_ku, m_zero, m_factored (GeneralMatrix.h), and the
   matrix whose factors ludata and m_ipiv hold (None: none yet).  The
   factorisation itself is LAPACK's or Sundials'. *)
Record band := Band {
  b_data : list R; b_n : nat; b_kl : nat; b_ku : nat;
  b_zero : R; b_factored : bool; b_lu : option (list R)
}.

Definition ldim (n_kl n_ku : nat) : nat := (2 * n_kl + n_ku + 1)%nat.

(* BandMatrix(n, kl, ku, v), BandMatrix.cpp:44-62. *)
Definition band_new (n kl ku : nat) (v : R) : band :=
  Band (repeat v (n * ldim kl ku)) n kl ku 0 false None.

(* resize, BandMatrix.cpp:103-120. *)
Definition band_resize (n kl ku : nat) (v : R) (b : band) : band :=
  Band (repeat v (n * ldim kl ku)) n kl ku (b_zero b) false (b_lu b).

(* bfill and zero, BandMatrix.cpp:122-132. *)
Definition band_fill (v : R) (b : band) : band :=
  Band (repeat v (length (b_data b))) (b_n b) (b_kl b) (b_ku b) (b_zero b) false (b_lu b).

(* index, BandMatrix.cpp:161-164. *)
Definition bindex (b : band) (i j : nat) : nat :=
  ((2 * b_kl b + b_ku b) * j + b_kl b + b_ku b + i)%nat.

Definition out_of_band (b : band) (i j : nat) : bool :=
  Nat.ltb (i + b_ku b) j || Nat.ltb (j + b_kl b) i.

(* value(i,j) const, BandMatrix.cpp:153-159. *)
Definition band_get (b : band) (i j : nat) : outcome R :=
  if out_of_band b i j then Ok 0 else rd (b_data b) (bindex b i j).

Definition clear_flag (b : band) : band :=
  Band (b_data b) (b_n b) (b_kl b) (b_ku b) (b_zero b) false (b_lu b).

(* A read through the reference returned by the non-const value(i,j),
   BandMatrix.cpp:144-151. *)
Definition band_ref_get (b : band) (i j : nat) : outcome (band * R) :=
  let b := clear_flag b in
  if out_of_band b i j then Ok (b, b_zero b)
  else omap (fun v => (b, v)) (rd (b_data b) (bindex b i j)).
(* m(i,j) = v through the same reference. *)
Definition band_set (b : band) (i j : nat) (v : R) : outcome band :=
  let b := clear_flag b in
  if out_of_band b i j then
    Ok (Band (b_data b) (b_n b) (b_kl b) (b_ku b) v false (b_lu b))
  else omap (fun d => Band d (b_n b) (b_kl b) (b_ku b) (b_zero b) false (b_lu b))
            (wr (b_data b) (bindex b i j) v).

(* ptrColumn(j)[k], BandMatrix.cpp:59 and 394-397. *)
Definition column_get (b : band) (j k : nat) : outcome R :=
  rd (b_data b) (ldim (b_kl b) (b_ku b) * j + k).
Definition column_set (b : band) (j k : nat) (v : R) : outcome band :=
  omap (fun d => Band d (b_n b) (b_kl b) (b_ku b) (b_zero b) (b_factored b) (b_lu b))
       (wr (b_data b) (ldim (b_kl b) (b_ku b) * j + k) v).

(* _value, BandMatrix.cpp:166-169. *)
Definition raw (b : band) (i j : nat) : outcome R := rd (b_data b) (bindex b i j).

(* mult, BandMatrix.cpp:196-207. *)
Definition band_mult (b : band) (v : nat -> R) : outcome (list R) :=
  omapM (fun m =>
    let start := if Nat.leb (b_kl b) m then (m - b_kl b)%nat else O in
    let stop := Nat.min (m + b_ku b + 1) (b_n b) in
    osum (fun j => omap (fun a => a * v j) (raw b m j)) (seq start (stop - start)) 0)
    (seq 0 (b_n b)).

(* leftMult, BandMatrix.cpp:209-220. *)
Definition band_leftMult (b : band) (v : nat -> R) : outcome (list R) :=
  omapM (fun n =>
    let start := if Nat.leb (b_ku b) n then (n - b_ku b)%nat else O in
    let stop := Nat.min (n + b_kl b + 1) (b_n b) in
    osum (fun i => omap (fun a => a * v i) (raw b i n)) (seq start (stop - start)) 0)
    (seq 0 (b_n b)).

(* oneNorm, BandMatrix.cpp:332-345: std::max(sum, value). *)
Fixpoint max_over (f : nat -> outcome R) (l : list nat) (acc : R) : outcome R :=
  match l with
  | [] => Ok acc
  | k :: l' => obind (f k) (fun v => max_over f l' (if rltb v acc then acc else v))
  end.
Definition oneNorm (b : band) : outcome R :=
  max_over (fun j =>
    let start := if Nat.leb (b_ku b) j then (j - b_ku b)%nat else O in
    let stop := Nat.min (j + b_kl b + 1) (b_n b) in
    osum (fun i => omap Rabs (raw b i j)) (seq start (stop - start)) 0)
    (seq 0 (b_n b)) 0.

(* The scan of checkRows / checkColumns, BandMatrix.cpp:347-392: the first line
   whose largest magnitude is smallest; stops at a zero line. *)
Fixpoint smallest (f : nat -> outcome R) (l : list nat) (best : option nat) (v : R)
    : outcome (option nat * R) :=
  match l with
  | [] => Ok (best, v)
  | i :: l' =>
      obind (f i) (fun s =>
        if rltb s v then (if reqb s 0 then Ok (Some i, s) else smallest f l' (Some i) s)
        else smallest f l' best v)
  end.
Definition huge300 : R := 10 ^ 300.
Definition checkRows (b : band) : outcome (option nat * R) :=
  smallest (fun i =>
    let start := if Nat.ltb (b_kl b) i then (i - b_kl b)%nat else O in
    let stop := Nat.min (i + b_ku b + 1) (b_n b) in
    max_over (fun j => omap Rabs (raw b i j)) (seq start (stop - start)) 0)
    (seq 0 (b_n b)) None huge300.
Definition checkColumns (b : band) : outcome (option nat * R) :=
  smallest (fun j =>
    let start := if Nat.ltb (b_ku b) j then (j - b_ku b)%nat else O in
    let stop := Nat.min (j + b_kl b + 1) (b_n b) in
    max_over (fun i => omap Rabs (raw b i j)) (seq start (stop - start)) 0)
    (seq 0 (b_n b)) None huge300.

(* factor, BandMatrix.cpp:222-248.  fok tells whether the external routine
   succeeds on a matrix; on failure ludata is overwritten and an exception is
   thrown, the flag keeping its value. *)
Definition factor (fok : list R -> bool) (b : band) : outcome band * band :=
  let b' := Band (b_data b) (b_n b) (b_kl b) (b_ku b) (b_zero b) (b_factored b) (Some (b_data b)) in
  if fok (b_data b) then
    let b'' := Band (b_data b) (b_n b) (b_kl b) (b_ku b) (b_zero b) true (Some (b_data b)) in
    (Ok b'', b'')
  else (Err, b').

(* solve, BandMatrix.cpp:256-288: returns the matrix whose factors are used. *)
Definition solve (fok : list R -> bool) (b : band) : outcome (list R) * band :=
  let '(r, b) := if b_factored b then (Ok b, b) else factor fok b in
  (obind r (fun b => match b_lu b with None => UB | Some m => Ok m end), b).

(* Calls on a band matrix; the results of reads and solves are not needed here. *)
Inductive bop :=
| BSet (i j : nat) (v : R)
| BRef (i j : nat)                        (* non-const read *)
| BFill (v : R)
| BResize (n kl ku : nat) (v : R)
| BFactor
| BSolve.
Definition bstep (fok : list R -> bool) (b : band) (o : bop) : outcome band :=
  match o with
  | BSet i j v => band_set b i j v
  | BRef i j => omap fst (band_ref_get b i j)
  | BFill v => Ok (band_fill v b)
  | BResize n kl ku v => Ok (band_resize n kl ku v b)
  | BFactor => Ok (snd (factor fok b))
  | BSolve => Ok (snd (solve fok b))
  end.
Fixpoint brun (fok : list R -> bool) (ops : list bop) (b : band) : outcome band :=
  match ops with [] => Ok b | o :: ops' => obind (bstep fok b o) (brun fok ops') end.
