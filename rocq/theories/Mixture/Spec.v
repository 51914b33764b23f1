(** What the fuel/oxidizer functions mean, in terms of ordinary real vectors. *)
From Coq Require Import String.
From Coq Require Import Reals List.
From Verif Require Import Base.Fp Base.Outcome Base.RSum Base.Map2 Phase.CompModel Phase.CompSpec Mixture.Model.
Import ListNotations.
Open Scope R_scope.

Section Spec.
  Context (els : list string) (sps : list species).

  (** Number of atoms of the element called [e] in a species (0 if the phase has no such element). *)
  Definition atoms (e : string) (s : species) : R :=
    match elementIndex els e with Some m => sp_at s m | None => 0 end.

  (** kmol of element [e] in masses [y] of the species. *)
  Definition kmol_of (e : string) (y : list R) : R :=
    rsum (map2 (fun s m => m / sp_w s * atoms e s) sps y).

  (** kmol of O2 needed to turn all C, S and H of the masses [y] into CO2, SO2 and H2O, kmol of O2
      their oxygen atoms make, and the difference, per kilogram. *)
  Definition demand (y : list R) : R := kmol_of "C" y + kmol_of "S" y + kmol_of "H" y / 4.
  Definition supply (y : list R) : R := kmol_of "O" y / 2.
  Definition deficit (y : list R) : R := (demand y - supply y) / rsum y.

  (** One kilogram of a composition, and the mixture of [a] kilograms of one with [b] of another. *)
  Definition per_kg (y : list R) : list R := map (fun v => v / rsum y) y.
  Definition mix (a b : R) (f o : list R) : list R :=
    map2 (fun u v => a * u + b * v) (per_kg f) (per_kg o).

  (** The masses a composition given on a basis stands for: the numbers themselves or, if they are
      moles, moles times molecular weight. *)
  Definition masses (b : basis) (x : list R) : list R :=
    match b with
    | MassBasis => x
    | MolarBasis => map2 (fun v s => v * sp_w s) x sps
    end.

  (** A composition: one non-negative number per species, not all zero. *)
  Definition composition (x : list R) : Prop :=
    length x = length sps /\ all_nonneg x /\ some_pos x.

  (** Positive molecular weights, and an element called O. *)
  Definition gas_ok : Prop :=
    Forall (fun s => 0 < sp_w s) sps /\ In "O"%string els.

  (** A phase in a proper state: temperature [T], density [D], mass fractions [Y] and the mean
      molecular weight that belongs to them. *)
  Definition in_state (c : st) (T D : R) (Y : list R) : Prop :=
    0 < T /\ 0 < D /\ composition Y /\ rsum Y = 1 /\
    s_T c = Fin T /\ s_D c = Fin D /\ s_Y c = map Fin Y /\
    s_mmw c = Fin (1 / rsum (map2 (fun y s => y / sp_w s) Y sps)).
End Spec.
