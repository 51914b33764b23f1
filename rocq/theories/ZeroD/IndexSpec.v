(* The numbering of the unknowns of a network, as documented: the reactors one after the
   other in the order they were added, and for each reactor first its own variables, then
   its species, then the species of its surfaces. *)
From Coq Require Import Reals String List Arith.
From Verif Require Import Base.Outcome Phase.Model Phase.Spec Phase.Props ZeroD.NetModel ZeroD.IndexModel.
Import ListNotations.
Local Open Scope string_scope.
Local Open Scope list_scope.
Local Open Scope nat_scope.

Definition variables (k : rkind) : list string :=
  match k with
  | KReservoir => []
  | KReactor => ["mass"; "volume"; "int_energy"]
  | KIdealGas => ["mass"; "volume"; "temperature"]
  | KConstP => ["mass"; "enthalpy"]
  | KIGConstP => ["mass"; "temperature"]
  | KMole => ["int_energy"; "volume"]
  | KIGMole => ["temperature"; "volume"]
  | KConstPMole => ["enthalpy"]
  | KIGConstPMole => ["temperature"]
  end.
Definition phases (x : rx) : list tab := x_gas x :: x_surf x.
Definition names (x : rx) : list string := variables (x_kind x) ++ concat (map t_names (phases x)).
Definition net_names (s : inet) : list string :=
  concat (map (fun x => map (fun c => (x_name x ++ ": " ++ c)%string) (names x)) (in_rx s)).
(* Where the unknowns of reactor r start. *)
Definition offset (s : inet) (r : nat) : nat := list_sum (map (fun x => length (names x)) (firstn r (in_rx s))).

(* The phases are results of calls on new phases. *)
Definition made (t : tab) : Prop := exists db h, Forall wf_op h /\ t = phase_after db h.

(* Names that can be told apart: no phase knows a variable's name, or the name of a
   species of a later phase (as name, alias or up to case). *)
Definition unknown (t : tab) (nm : string) : Prop := speciesIndex t nm = Ok None.
Fixpoint apart (l : list tab) : Prop :=
  match l with
  | [] => True
  | t :: l => (forall t' nm, In t' l -> In nm (t_names t') -> unknown t nm) /\ apart l
  end.
Definition clear (x : rx) : Prop :=
  (forall t nm, In t (phases x) -> In nm (variables (x_kind x)) -> unknown t nm) /\ apart (phases x).

(* Calls that do not change what there is to number. *)
Definition settled_op (o : iop) : Prop := match o with IAdd _ _ _ _ | ISurf _ _ => False | _ => True end.
Definition no_limit (o : iop) : Prop := match o with ILimit _ _ _ => False | _ => True end.
(* The network is initialized once and then used. *)
Definition used (ops1 ops2 : list iop) (s : inet) : Prop :=
  s = irun (ops1 ++ IInit :: ops2) /\ Forall settled_op ops2 /\ in_rx (irun ops1) <> [].

(* The limit in force: limits that are not positive are ignored (ReactorNet.cpp:223). *)
Definition limit_at (l : list R) (k : nat) : option R :=
  match nth_error l k with
  | Some v => if Rlt_dec 0 v then Some v else None
  | None => None
  end.
