(* Numbering of the unknowns of a reactor network: Reactor::componentIndex and
   componentName of the reactor classes, ReactorNet::initialize, globalComponentIndex,
   componentName, and advance limits. Phases are the tables of Phase/Model.v. *)
From Coq Require Import Reals ZArith String List Bool Arith.
From Verif Require Import Base.Outcome Base.Fp Phase.Model ZeroD.NetModel.
Import ListNotations.
Local Open Scope string_scope.
Local Open Scope list_scope.
Local Open Scope nat_scope.

(* A reactor: class, name, phase and surface phases, m_nv (0 before initialize) and
   m_advancelimits. A reactor locks its phase, so the number of species is m_nsp
   (ReactorBase.cpp:34,82). *)
Record rx := Rx {
  x_kind : rkind; x_name : string; x_gas : tab; x_surf : list tab; x_nv : nat; x_lim : list R
}.
Definition x_set_nv (x : rx) (nv : nat) : rx := Rx (x_kind x) (x_name x) (x_gas x) (x_surf x) nv (x_lim x).
Definition x_set_lim (x : rx) (l : list R) : rx := Rx (x_kind x) (x_name x) (x_gas x) (x_surf x) (x_nv x) l.
Definition x_add_surf (x : rx) (t : tab) : rx :=
  Rx (x_kind x) (x_name x) (x_gas x) (x_surf x ++ [t]) (x_nv x) (x_lim x).

(* m_nv: Reactor.cpp:102-112; the subclasses subtract one or two, see neq in NetModel.v. *)
Definition x_initialize (x : rx) : rx :=
  let nv3 := t_kk (x_gas x) + 3 + list_sum (map t_kk (x_surf x)) in
  x_set_nv x (match x_kind x with
              | KReservoir => 0
              | KReactor | KIdealGas => nv3
              | KConstP | KIGConstP | KMole | KIGMole => nv3 - 1
              | KConstPMole | KIGConstPMole => nv3 - 1 - 1
              end).

(* Reactor::speciesIndex, Reactor.cpp:396-416. *)
Fixpoint surf_index (offset : nat) (ss : list tab) (nm : string) : outcome (option nat) :=
  match ss with
  | [] => Ok None
  | t :: ss =>
      obind (speciesIndex t nm) (fun o =>
      match o with
      | Some k => Ok (Some (k + offset))
      | None => surf_index (offset + t_kk t) ss nm
      end)
  end.
Definition x_speciesIndex (x : rx) (nm : string) : outcome (option nat) :=
  obind (speciesIndex (x_gas x) nm) (fun o =>
  match o with
  | Some k => Ok (Some k)
  | None => surf_index (t_kk (x_gas x)) (x_surf x) nm
  end).

(* componentIndex: Reactor.cpp:418-432, IdealGasReactor.cpp:138-152,
   ConstPressureReactor.cpp:121-133, IdealGasConstPressureReactor.cpp:133-145,
   MoleReactor.cpp:284-296, IdealGasMoleReactor.cpp:53-65,
   ConstPressureMoleReactor.cpp:110-120, IdealGasConstPressureMoleReactor.cpp:239-249;
   m_sidx is 2 (MoleReactor.h) or 1 (ConstPressureMoleReactor.h). None is npos. *)
Definition first_species (k : rkind) : nat :=
  match k with
  | KReservoir => 0
  | KReactor | KIdealGas => 3
  | KConstP | KIGConstP | KMole | KIGMole => 2
  | KConstPMole | KIGConstPMole => 1
  end.
Definition fixed_index (k : rkind) (nm : string) : option nat :=
  let test s i (e : option nat) := if String.eqb nm s then Some i else e in
  match k with
  | KReservoir => None
  | KReactor => test "mass" 0 (test "volume" 1 (test "int_energy" 2 None))
  | KIdealGas => test "mass" 0 (test "volume" 1 (test "temperature" 2 None))
  | KConstP => test "mass" 0 (test "enthalpy" 1 None)
  | KIGConstP => test "mass" 0 (test "temperature" 1 None)
  | KMole => test "int_energy" 0 (test "volume" 1 None)
  | KIGMole => test "temperature" 0 (test "volume" 1 None)
  | KConstPMole => test "enthalpy" 0 None
  | KIGConstPMole => test "temperature" 0 None
  end.
Definition componentIndex (x : rx) (nm : string) : outcome (option nat) :=
  obind (x_speciesIndex x nm) (fun o =>
  match o with
  | Some k => Ok (Some (k + first_species (x_kind x)))
  | None => Ok (fixed_index (x_kind x) nm)
  end).

(* componentName: Reactor.cpp:434-459 and the files above. *)
Fixpoint surf_name (ss : list tab) (k : nat) : outcome string :=
  match ss with
  | [] => Err
  | t :: ss => if k <? t_kk t then speciesName t k else surf_name ss (k - t_kk t)
  end.
Definition species_name (x : rx) (k : nat) : outcome string :=
  if k <? t_kk (x_gas x) then speciesName (x_gas x) k else surf_name (x_surf x) (k - t_kk (x_gas x)).
Definition ranged_name (x : rx) (first k : nat) : outcome string :=
  if (first <=? k) && (k <? x_nv x) then species_name x (k - first) else Err.
Definition name_Reactor (x : rx) (k : nat) : outcome string :=
  match k with 0 => Ok "mass" | 1 => Ok "volume" | 2 => Ok "int_energy" | _ => ranged_name x 3 k end.
Definition name_ConstP (x : rx) (k : nat) : outcome string :=
  match k with 0 => Ok "mass" | 1 => Ok "enthalpy" | _ => ranged_name x 2 k end.
Definition name_Mole (x : rx) (k : nat) : outcome string :=
  match k with 0 => Ok "int_energy" | 1 => Ok "volume" | _ => ranged_name x 2 k end.
Definition componentName (x : rx) (k : nat) : outcome string :=
  match x_kind x with
  | KReservoir => UB
  | KReactor => name_Reactor x k
  | KIdealGas => match k with 2 => Ok "temperature" | _ => name_Reactor x k end
  | KConstP => name_ConstP x k
  | KIGConstP => match k with 1 => Ok "temperature" | _ => name_ConstP x k end
  | KMole => name_Mole x k
  | KIGMole => match k with 0 => Ok "temperature" | _ => name_Mole x k end
  | KConstPMole => match k with 0 => Ok "enthalpy" | _ => ranged_name x 1 k end
  | KIGConstPMole => match k with 0 => Ok "temperature" | _ => ranged_name x 1 k end
  end.

(* ---------------------------------------------------------------- *)
(** * ReactorNet *)
Record inet := INet { in_rx : list rx; in_start : list nat; in_nv : nat; in_init : bool }.

(* ReactorNet::initialize, ReactorNet.cpp:87-136 (m_start, m_nv). *)
Fixpoint starts (nv : nat) (l : list rx) : list nat :=
  match l with
  | [] => []
  | x :: l => (nv + x_nv x) :: starts (nv + x_nv x) l
  end.
Definition initialize (s : inet) : outcome unit * inet :=
  match in_rx s with
  | [] => (Err, INet [] (in_start s) 0 (in_init s))
  | _ =>
      let l := map x_initialize (in_rx s) in
      (Ok tt, INet l (0 :: starts 0 l) (list_sum (map x_nv l)) true)
  end.
Definition ensure (s : inet) : outcome unit * inet := if in_init s then (Ok tt, s) else initialize s.

Definition size_mod : Z := (2 ^ 64)%Z.
Definition npos : Z := (size_mod - 1)%Z.
Definition to_size (o : option nat) : Z := match o with Some k => Z.of_nat k | None => npos end.

(* ReactorNet::globalComponentIndex, ReactorNet.cpp:493-499: size_t arithmetic. *)
Definition globalComponentIndex (s : inet) (nm : string) (r : nat) : outcome Z * inet :=
  match ensure s with
  | (Ok _, s) =>
      (match nth_error (in_start s) r, nth_error (in_rx s) r with
       | Some st, Some x => omap (fun o => ((Z.of_nat st + to_size o) mod size_mod)%Z) (componentIndex x nm)
       | _, _ => UB
       end, s)
  | (Err, s) => (Err, s)
  | (Exn, s) => (Exn, s)
  | (UB, s) => (UB, s)
  end.

(* ReactorNet::componentName, ReactorNet.cpp:501-511. *)
Fixpoint net_name (l : list rx) (i : nat) : outcome string :=
  match l with
  | [] => Err
  | x :: l => if i <? x_nv x then omap (fun c => (x_name x ++ ": " ++ c)%string) (componentName x i)
              else net_name l (i - x_nv x)
  end.
Definition net_componentName (s : inet) (i : nat) : outcome string := net_name (in_rx s) i.

(* The part of a state vector a reactor is given: y + m_start[n], ReactorNet.cpp:437-443. *)
Definition part_of {A} (s : inet) (y : list A) (r : nat) : outcome (list A) :=
  match nth_error (in_start s) r, nth_error (in_rx s) r with
  | Some st, Some x => if st + x_nv x <=? length y then Ok (firstn (x_nv x) (skipn st y)) else UB
  | _, _ => UB
  end.

(* ---------------------------------------------------------------- *)
(** * Advance limits *)

(* vector::resize(n, v). *)
Definition resize {A} (n : nat) (v : A) (l : list A) : list A := firstn n l ++ repeat v (n - length l).
Fixpoint lput {A} (l : list A) (i : nat) (v : A) : list A :=
  match l, i with
  | [], _ => []
  | _ :: l, O => v :: l
  | a :: l, S i => a :: lput l i v
  end.
Definition any_limit (l : list R) : bool := existsb (rltb 0) l.
Definition shrink (l : list R) : list R := if any_limit l then l else [].
(* hasAdvanceLimits, Reactor.h:175-177; Reactor::getAdvanceLimits, Reactor.cpp:519-528. *)
Definition hasLimits (x : rx) : bool := match x_lim x with [] => false | _ => true end.
Definition getLimits (x : rx) : list R := if hasLimits x then x_lim x else repeat (-1)%R (x_nv x).
(* Reactor::setAdvanceLimits, Reactor.cpp:504-517; the array has m_nv elements. *)
Definition setLimits (x : rx) (l : list R) : outcome rx :=
  if x_nv x <=? length l then Ok (x_set_lim x (shrink (firstn (x_nv x) l))) else UB.

(* Reactor::setAdvanceLimit, Reactor.cpp:530-561, for reactor r of a network. *)
Definition setLimit_at (x : rx) (k : nat) (v : R) : outcome rx :=
  if k <? x_nv x then Ok (x_set_lim x (shrink (lput (resize (x_nv x) (-1)%R (x_lim x)) k v))) else UB.
Definition set_rx (s : inet) (r : nat) (x : rx) : inet :=
  INet (lput (in_rx s) r x) (in_start s) (in_nv s) (in_init s).
Definition setAdvanceLimit (s : inet) (r : nat) (nm : string) (v : R) : outcome unit * inet :=
  match nth_error (in_rx s) r with
  | None => (UB, s)
  | Some x =>
      match componentIndex x nm with
      | Ok None => (Err, s)
      | Ok (Some k) =>
          let write s := match nth_error (in_rx s) r with
                         | Some x => match setLimit_at x k v with
                                     | Ok x' => (Ok tt, set_rx s r x')
                                     | _ => (UB, s)
                                     end
                         | None => (UB, s)
                         end in
          if x_nv x =? 0 then
            match initialize s with
            | (Ok _, s) => write s
            | e => e
            end
          else if x_nv x <? k then (Err, s)
          else write s
      | Err => (Err, s)
      | Exn => (Exn, s)
      | UB => (UB, s)
      end
  end.
(* ReactorNet::getAdvanceLimits, ReactorNet.cpp:471-478: each reactor copies its limits
   into the array (here of m_nv elements) from m_start[n] on, with their own length. *)
Fixpoint put_list {A} (a : list A) (at_ : nat) (l : list A) : list A :=
  match l with
  | [] => a
  | v :: l => put_list (lput a at_ v) (S at_) l
  end.
Definition net_limits (s : inet) (a : list R) : list R :=
  fold_left (fun a p => put_list a (fst p) (getLimits (snd p))) (combine (in_start s) (in_rx s)) a.

(* Calls; addReactor (ReactorNet.cpp:285-310) does not reset m_init. *)
Inductive iop :=
| IAdd (k : rkind) (name : string) (gas : tab) (surf : list tab)
| ISurf (r : nat) (t : tab)
| IInit
| ISetTol
| ILimit (r : nat) (nm : string) (v : R)
| IQuery (nm : string) (r : nat).
Definition istep (s : inet) (o : iop) : inet :=
  match o with
  | IAdd KReservoir _ _ _ => s
  | IAdd k name gas surf => INet (in_rx s ++ [Rx k name gas surf 0 []]) (in_start s) (in_nv s) (in_init s)
  | ISurf r t => match nth_error (in_rx s) r with Some x => set_rx s r (x_add_surf x t) | None => s end
  | IInit => snd (initialize s)
  | ISetTol => INet (in_rx s) (in_start s) (in_nv s) false     (* setTolerances, ReactorNet.cpp:47-56 *)
  | ILimit r nm v => snd (setAdvanceLimit s r nm v)
  | IQuery nm r => snd (globalComponentIndex s nm r)
  end.
Definition inet0 : inet := INet [] [] 0 false.
Definition irun (ops : list iop) : inet := fold_left istep ops inet0.
