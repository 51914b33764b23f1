(** Model of the functor classes: include/cantera/numerics/Func1.h, src/numerics/Func1.cpp and
    src/numerics/Func1Factory.cpp.  Numbers are reals (no rounding, no overflow). *)
From Coq Require Import Reals ZArith List Bool.
From Verif Require Import Base.Outcome Base.Fp.
Import ListNotations.
Open Scope R_scope.

(** Result of eval: a finite value; [NF], a value that is not finite or was computed through one that is not
    (the C++ code may still return a finite number then, for example exp(-inf) = 0); [EUB], undefined behaviour. *)
Inductive ev := V (x : R) | NF | EUB.
Definition bind (a : ev) (k : R -> ev) : ev := match a with V x => k x | NF => NF | EUB => EUB end.
Definition ev2 (op : R -> R -> ev) (a b : ev) : ev :=
  match a, b with
  | EUB, _ | _, EUB => EUB
  | V x, V y => op x y
  | _, _ => NF
  end.
Definition ofo (a : option R) : ev := match a with Some x => V x | None => NF end.

(** The functor objects.  A constant [None] is NaN (it arises only from a division by zero). *)
Inductive fn :=
| FBase                                             (* Func1 itself, Func1.h:82-160 *)
| FSin (c : R) | FCos (c : R) | FExp (c : R) | FLog (c : R) | FPow (c : R)   (* Func1.h:183-330 *)
| FConst (c : R)                                    (* Func1.h:387-411 *)
| FTab (linear : bool) (tab : list (R * option R))  (* Func1.h:335-380 *)
| FSum (f g : fn) | FDiff (f g : fn) | FProd (f g : fn) | FRatio (f g : fn) | FComp (f g : fn) (* Func1.h:420-622 *)
| FTimes (f : fn) (c : option R) | FPlus (f : fn) (c : R)                    (* Func1.h:512-566 *)
| FPeriodic (f : fn) (c : R)                        (* Func1.h:823-838 *)
| FGauss (a t0 tau : R)                             (* Func1.h:640-675 *)
| FPoly (c : list R)                                (* Func1.h:683-717 *)
| FFourier (omega a0_2 : R) (cs : list (R * R))     (* Func1.h:729-766: pairs of cosine and sine coefficients *)
| FArr (l : list (R * R * R)).                      (* Func1.h:778-814 *)

(** std::pow for finite arguments. *)
Definition integer (c : R) : bool := reqb c (IZR (Int_part c)).
Definition rpow (x c : R) : ev :=
  if rltb 0 x then V (Rpower x c)
  else if rltb x 0 then if integer c then V (powerRZ x (Int_part c)) else NF
  else if reqb c 0 then V 1 else if rltb 0 c then V 0 else NF.
Definition rlog (x : R) : ev := if rltb 0 x then V (ln x) else NF.
Definition rdiv (x y : R) : ev := if reqb y 0 then NF else V (x / y).

(** Tabulated1::eval, Func1.cpp:364-385: the segment found by the while loop; the table is not empty. *)
Fixpoint segment (t : R) (l : list (R * option R)) : option ((R * option R) * (R * option R)) :=
  match l with
  | a :: ((b :: _) as l') => if rltb (fst b) t then segment t l' else Some (a, b)
  | _ => None
  end.
Definition tab_eval (linear : bool) (tab : list (R * option R)) (t : R) : ev :=
  match tab with
  | [] => EUB
  | (t0, f0) :: _ =>
      let '(tn, fnl) := last tab (t0, f0) in
      if negb (rltb t0 t) then ofo f0
      else if negb (rltb t tn) then ofo fnl
      else match segment t tab with
           | Some ((ta, fa), (tb, fb)) =>
               if linear then ev2 (fun a b => bind (rdiv (b - a) (tb - ta)) (fun d => V (a + d * (t - ta)))) (ofo fa) (ofo fb)
               else ofo fa
           | None => EUB
           end
  end.

(** int(x): truncation; undefined if the result does not fit. *)
Definition trunc (q : R) : Z := if rltb q 0 then (- Int_part (- q))%Z else Int_part q.
Definition int_fits (n : Z) : bool := (Z.leb (-2147483648) n && Z.leb n 2147483647)%bool.

(** Poly1::eval, Func1.h:704-711; Fourier1::eval, Func1.h:753-762; Arrhenius1::eval, Func1.h:806-812. *)
Definition poly_eval (c : list R) (t : R) : ev :=
  match c with [] => EUB | c0 :: cs => V (fold_left (fun r k => r * t + k) cs c0) end.
Fixpoint fourier_sum (omega t : R) (n : nat) (cs : list (R * R)) (sum : R) : R :=
  match cs with
  | [] => sum
  | (a, b) :: cs' => fourier_sum omega t (S n) cs' (sum + (a * cos (omega * INR (S n) * t) + b * sin (omega * INR (S n) * t)))
  end.
Fixpoint arr_sum (t : R) (l : list (R * R * R)) (sum : ev) : ev :=
  match l with
  | [] => sum
  | (a, b, e) :: l' =>
      arr_sum t l' (ev2 (fun s x => V (s + x)) sum (ev2 (fun p q => V (a * p * exp q)) (rpow t b) (rdiv (- e) t)))
  end.

(** eval, Func1.h and Func1.cpp:28-32. *)
Fixpoint eval (f : fn) (t : R) : ev :=
  match f with
  | FBase => V 0
  | FSin c => V (sin (c * t))
  | FCos c => V (cos (c * t))
  | FExp c => V (exp (c * t))
  | FLog c => rlog (c * t)
  | FPow c => rpow t c
  | FConst c => V c
  | FTab lin tab => tab_eval lin tab t
  | FSum f g => ev2 (fun x y => V (x + y)) (eval f t) (eval g t)
  | FDiff f g => ev2 (fun x y => V (x - y)) (eval f t) (eval g t)
  | FProd f g => ev2 (fun x y => V (x * y)) (eval f t) (eval g t)
  | FRatio f g => ev2 rdiv (eval f t) (eval g t)
  | FComp f g => bind (eval g t) (eval f)
  | FTimes f c => ev2 (fun x y => V (x * y)) (eval f t) (ofo c)
  | FPlus f c => bind (eval f t) (fun x => V (x + c))
  | FPeriodic f c =>
      if reqb c 0 then EUB
      else let n := trunc (t / c) in if int_fits n then eval f (t - IZR n * c) else EUB
  | FGauss a t0 tau => bind (rdiv (t - t0) tau) (fun x => V (a * exp (- x * x)))
  | FPoly c => poly_eval c t
  | FFourier omega a0_2 cs => V (fourier_sum omega t 0 cs a0_2)
  | FArr l => arr_sum t l (V 0)
  end.

(** isIdentical, Func1.cpp:39-62, and its overrides (tables and the old-style functors: false). *)
Fixpoint isIdentical (f g : fn) : bool :=
  match f, g with
  | FSin c, FSin c' | FCos c, FCos c' | FExp c, FExp c' | FLog c, FLog c' | FPow c, FPow c' | FConst c, FConst c' => reqb c c'
  | FSum a b, FSum a' b' | FDiff a b, FDiff a' b' | FProd a b, FProd a' b' | FRatio a b, FRatio a' b' | FComp a b, FComp a' b' =>
      isIdentical a a' && isIdentical b b'
  | FTimes a (Some c), FTimes a' (Some c') => reqb c c' && isIdentical a a'
  | FPlus a c, FPlus a' c' | FPeriodic a c, FPeriodic a' c' => reqb c c' && isIdentical a a'
  | _, _ => false
  end.

(** Helpers, Func1.cpp:541-569. *)
Definition isConstant (f : fn) : option R := match f with FConst c => Some c | _ => None end.
Definition isZero (f : fn) : bool := match f with FConst c => reqb c 0 | _ => false end.
Definition isOne (f : fn) : bool := match f with FConst c => reqb c 1 | _ => false end.
Definition isTimes (f : fn) : option (fn * option R) := match f with FTimes g c => Some (g, c) | _ => None end.
Definition isExp (f : fn) : option R := match f with FExp c => Some c | _ => None end.
Definition isPow (f : fn) : option R := match f with FPow c => Some c | _ => None end.
Definition ois (a : option R) (x : R) : bool := match a with Some y => reqb y x | None => false end.
Definition omul (a b : option R) : option R := match a, b with Some x, Some y => Some (x * y) | _, _ => None end.
Definition oplus (a b : option R) : option R := match a, b with Some x, Some y => Some (x + y) | _, _ => None end.
Definition ominus (a b : option R) : option R := match a, b with Some x, Some y => Some (x - y) | _, _ => None end.
Definition odiv (a b : option R) : option R :=
  match a, b with Some x, Some y => if reqb y 0 then None else Some (x / y) | _, _ => None end.

(** isProportional, Func1.cpp:571-598: [Some c] if proportional. *)
Definition isProportional (f1 f2 : fn) : option (option R) :=
  match isTimes f1, isTimes f2 with
  | None, None => if isIdentical f1 f2 then Some (Some 1) else None
  | None, Some (g2, c2) => if isIdentical f1 g2 then Some c2 else None
  | Some (g1, c1), None => if isIdentical f2 g1 then Some (odiv (Some 1) c1) else None
  | Some (g1, c1), Some (g2, c2) => if isIdentical g2 g1 then Some (odiv c2 c1) else None
  end.

(** newTimesConstFunction and newPlusConstFunction, Func1.cpp:752-778 *)
Definition newTimes (f : fn) (c : option R) : fn :=
  if ois c 0 then FConst 0
  else if ois c 1 then f
  else match isTimes f with
       | Some (g, c') => FTimes g (omul c' c)
       | None => FTimes f c
       end.
Definition newPlus (f : fn) (c : R) : fn :=
  if reqb c 0 then f
  else match f with
       | FConst c' => FConst (c' + c)
       | FPlus g c' => FPlus g (c' + c)
       | _ => FPlus f c
       end.

(** newSumFunction, Func1.cpp:602-627 *)
Definition newSum (f1 f2 : fn) : fn :=
  if isIdentical f1 f2 then newTimes f1 (Some 2)
  else if isZero f1 then f2
  else if isZero f2 then f1
  else match isConstant f2, isConstant f1 with
       | Some c2, _ => newPlus f1 c2
       | None, Some c1 => newPlus f2 c1
       | None, None =>
           match isProportional f1 f2 with
           | Some c => if ois c (-1) then FConst 0 else newTimes f1 (oplus c (Some 1))
           | None => FSum f1 f2
           end
       end.
(** newDiffFunction, Func1.cpp:629-651 *)
Definition newDiff (f1 f2 : fn) : fn :=
  if isZero f2 then f1
  else if isZero f1 then newTimes f2 (Some (-1))
  else if isIdentical f1 f2 then FConst 0
  else match isConstant f2 with
       | Some c2 => newPlus f1 (- c2)
       | None =>
           match isProportional f1 f2 with
           | Some c => if ois c 1 then FConst 0 else newTimes f1 (ominus (Some 1) c)
           | None => FDiff f1 f2
           end
       end.
(** newProdFunction, Func1.cpp:653-704.  It calls itself with the factors stripped of constants; [fuel] bounds
    the depth and is chosen larger than both trees. *)
Fixpoint size (f : fn) : nat :=
  match f with
  | FSum a b | FDiff a b | FProd a b | FRatio a b | FComp a b => S (size a + size b)
  | FTimes a _ | FPlus a _ | FPeriodic a _ => S (size a)
  | _ => 1%nat
  end.
Definition strip (f : fn) : fn * option R := match isTimes f with Some (g, c) => (g, c) | None => (f, Some 1) end.
Fixpoint prod_fuel (fuel : nat) (f1 f2 : fn) : fn :=
  match fuel with
  | O => FBase
  | S fuel' =>
      if isOne f1 then f2
      else if isOne f2 then f1
      else if isZero f1 || isZero f2 then FConst 0
      else match isConstant f1, isConstant f2 with
           | Some c1, Some c2 => FConst (c1 * c2)
           | Some c1, None => newTimes f2 (Some c1)
           | None, Some c2 => newTimes f1 (Some c2)
           | None, None =>
               match isPow f1, isPow f2, isExp f1, isExp f2 with
               | Some a, Some b, _, _ => FPow (a + b)
               | _, _, Some a, Some b => FExp (a + b)
               | _, _, _, _ =>
                   match isTimes f1, isTimes f2 with
                   | None, None => FProd f1 f2
                   | _, _ =>
                       let '(g1, c1) := strip f1 in
                       let '(g2, c2) := strip f2 in
                       let p := prod_fuel fuel' g1 g2 in
                       if negb (ois (omul c1 c2) 1) then newTimes p (omul c1 c2) else p
                   end
               end
           end
  end.
Definition newProd (f1 f2 : fn) : fn := prod_fuel (size f1 + size f2) f1 f2.
(** newRatioFunction, Func1.cpp:706-730 *)
Definition newRatio (f1 f2 : fn) : outcome fn :=
  if isOne f2 then Ok f1
  else if isZero f1 then Ok (FConst 0)
  else if isZero f2 then Err
  else if isIdentical f1 f2 then Ok (FConst 1)
  else match isConstant f2 with
       | Some c => Ok (newTimes f1 (Some (1 / c)))
       | None =>
           match isPow f1, isPow f2, isExp f1, isExp f2 with
           | Some a, Some b, _, _ => Ok (FPow (a - b))
           | _, _, Some a, Some b => Ok (FExp (a - b))
           | _, _, _, _ => Ok (FRatio f1 f2)
           end
       end.
(** newCompositeFunction, Func1.cpp:732-750 *)
Definition newComp (f1 f2 : fn) : fn :=
  if isZero f1 then FConst 0
  else match isConstant f1 with
       | Some _ => f1
       | None =>
           match isPow f1 with
           | Some a => if reqb a 1 then f2 else if reqb a 0 then FConst 1
                       else match isPow f2 with Some b => FPow (a * b) | None => FComp f1 f2 end
           | None => FComp f1 f2
           end
       end.

(** Tabulated1::derivative, Func1.cpp:387-411. *)
Fixpoint slopes (l : list (R * option R)) : list (R * option R) :=
  match l with
  | (ta, fa) :: (((tb, fb) :: _) as l') => (ta, odiv (ominus fb fa) (Some (tb - ta))) :: slopes l'
  | [(ta, _)] => [(ta, Some 0)]
  | [] => []
  end.
Definition tab_derivative (linear : bool) (tab : list (R * option R)) : outcome fn :=
  match tab with
  | [] => UB
  | (t0, f0) :: _ => Ok (FTab false (if linear then slopes tab else [(t0, Some 0); (fst (last tab (t0, f0)), Some 0)]))
  end.

(** derivative: Func1.cpp:33-37, 94-100, 111-115, 137-144, 164-171, 192-202, 450-456, 471-475, 505-510,
    and the inline ones of Const1, Sum1, Diff1, TimesConstant1 and PlusConstant1 in Func1.h:388-565; the old-style functors inherit the base class, which throws. *)
Definition obind2 (a b : outcome fn) (k : fn -> fn -> outcome fn) : outcome fn := obind a (fun x => obind b (k x)).
Fixpoint derivative (f : fn) : outcome fn :=
  match f with
  | FSin c => Ok (newTimes (FCos c) (Some c))
  | FCos c => Ok (newTimes (FSin c) (Some (- c)))
  | FExp c => Ok (if negb (reqb c 1) then newTimes (FExp c) (Some c) else FExp c)
  | FLog c => Ok (if negb (reqb c 1) then newTimes (FPow (-1)) (Some c) else FPow (-1))
  | FPow c => Ok (if reqb c 0 then FConst 0 else if reqb c 1 then FConst 1 else newTimes (FPow (c - 1)) (Some c))
  | FConst _ => Ok (FConst 0)
  | FTab lin tab => tab_derivative lin tab
  | FSum f g => obind2 (derivative f) (derivative g) (fun a b => Ok (newSum a b))
  | FDiff f g => obind2 (derivative f) (derivative g) (fun a b => Ok (newDiff a b))
  | FProd f g => obind2 (derivative f) (derivative g) (fun df dg => Ok (newSum (newProd f dg) (newProd g df)))
  | FRatio f g => obind2 (derivative f) (derivative g) (fun df dg => newRatio (newDiff (newProd df g) (newProd f dg)) (newProd g g))
  | FComp f g => obind2 (derivative f) (derivative g) (fun df dg => Ok (newProd (newComp df g) dg))
  | FTimes f c => obind (derivative f) (fun d => Ok (newTimes d c))
  | FPlus f _ => derivative f
  | FBase | FPeriodic _ _ | FGauss _ _ _ | FPoly _ | FFourier _ _ _ | FArr _ => Err
  end.

(** Constructors from a parameter vector (newFunc1), Func1.cpp:76-83, 102-109, 128-135, 155-162, 183-190, 206-224,
    260-309, 329-350, Func1Factory.cpp:14-56. *)
Inductive kind := KFunctor | KSin | KCos | KExp | KLog | KPow | KConst | KPoly | KFourier | KGauss | KArr | KTabLin | KTabPrev.
Definition one (mk : R -> fn) (p : list R) : outcome fn := match p with [c] => Ok (mk c) | _ => Err end.
Fixpoint increasing (l : list R) : bool :=
  match l with a :: ((b :: _) as l') => negb (rltb b a) && increasing l' | _ => true end.
Fixpoint triples (n : nat) (p : list R) : list (R * R * R) :=
  match n, p with S n', a :: b :: e :: p' => (a, b, e) :: triples n' p' | _, _ => [] end.
Definition even (n : nat) : bool := (Nat.modulo n 2 =? 0)%nat.
Definition newTab (lin : bool) (p : list R) : outcome fn :=
  if (length p <? 4)%nat then Err
  else if negb (even (length p)) then Err
  else let n := Nat.div (length p) 2 in
       if increasing (firstn n p) then Ok (FTab lin (combine (firstn n p) (map Some (skipn n p)))) else Err.
Definition newFunc1 (k : kind) (p : list R) : outcome fn :=
  match k with
  | KFunctor => Ok FBase
  | KSin => one FSin p | KCos => one FCos p | KExp => one FExp p | KLog => one FLog p | KPow => one FPow p | KConst => one FConst p
  | KPoly => match p with [] => Err | _ => Ok (FPoly p) end
  | KFourier =>
      if (length p <? 4)%nat then Err
      else if negb (even (length p)) then Err
      else let n := (Nat.div (length p) 2 - 1)%nat in
           Ok (FFourier (nth (n + 1) p 0) (1 / 2 * nth 0 p 0) (combine (firstn n (skipn 1 p)) (firstn n (skipn (n + 2) p))))
  | KGauss => match p with [a; t0; w] => Ok (FGauss a t0 (w / (2 * sqrt (ln 2)))) | _ => Err end
  | KArr =>
      if (length p <? 3)%nat then Err
      else if negb (Nat.modulo (length p) 3 =? 0)%nat then Err
      else Ok (FArr (triples (Nat.div (length p) 3) p))
  | KTabLin => newTab true p
  | KTabPrev => newTab false p
  end.
