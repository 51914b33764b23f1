(** What the transport properties of an ideal gas mixture are, and which coefficients they are
    computed from after a history of calls. *)
From Coq Require Import Reals List Bool Arith.
From Verif Require Import Base.Fp Base.Outcome Base.RSum Base.Vec Transport.Model.
Import ListNotations.
Open Scope R_scope.

(** The polynomials in use: for each species, and for each pair of species (in either order). *)
Record tabs := Tb { tb_v : nat -> coef; tb_c : nat -> coef; tb_d : nat -> nat -> coef }.
(** Number of species the tables are for, temperature of the last query ([None]: none since the
    tables were changed), tables. *)
Record hist := Hi { h_n : nat; h_last : option R; h_tabs : tabs }.

Section Spec.
  Context (ck : bool) (fitV fitC : list species -> nat -> coef) (fitD : list species -> nat -> nat -> coef).

  Definition fitted (sp : list species) : tabs :=
    Tb (fitV sp) (fitC sp) (fun i j => fitD sp (Nat.min i j) (Nat.max i j)).
  Definition fit (g : gas) (h : hist) : tabs := if (nS g =? h_n h)%nat then h_tabs h else fitted (g_sp g).

  (** A query fits new polynomials when the number of species is not the one known. *)
  Definition hask (g : gas) (h : hist) : hist := Hi (nS g) (Some (g_T g)) (fit g h).
  Definition hstep (gh : gas * hist) (o : op) : gas * hist :=
    let (g, h) := gh in
    let tb := h_tabs h in
    match o with
    | SetState T P rho x => (Gas T P rho x (g_sp g), h)
    | AddSpecies s => (add_species g s, h)
    | Ask _ => (g, hask g h)
    | SetV i c => (g, if (i <? h_n h)%nat then
        Hi (h_n h) None (Tb (fun a => if (a =? i)%nat then c else tb_v tb a) (tb_c tb) (tb_d tb)) else h)
    | SetC i c => (g, if (i <? h_n h)%nat then
        Hi (h_n h) None (Tb (tb_v tb) (fun a => if (a =? i)%nat then c else tb_c tb a) (tb_d tb)) else h)
    | SetD i j c => (g, if (i <? h_n h)%nat && (j <? h_n h)%nat then
        Hi (h_n h) None (Tb (tb_v tb) (tb_c tb) (fun a b =>
          if (a =? i)%nat && (b =? j)%nat || (a =? j)%nat && (b =? i)%nat then c else tb_d tb a b)) else h)
    end.
  Definition hstart (g : gas) : hist := Hi (nS g) None (fitted (g_sp g)).
  Definition hrun (g : gas) (ops : list op) : gas * hist := fold_left hstep ops (g, hstart g).

  (** No query finds a new species at the temperature of the query before. *)
  Definition safe_ask (g : gas) (h : hist) : Prop := nS g = h_n h \/ h_last h <> Some (g_T g).
  Definition has_data (sp : list species) : Prop := Forall (fun s => sp_tr s = true) sp.
  Fixpoint safe (ops : list op) (g : gas) (h : hist) : Prop :=
    match ops with
    | [] => True
    | o :: ops =>
        match o with
        | Ask _ => safe_ask g h
        | AddSpecies s => sp_tr s = true
        | _ => True
        end /\ let (g, h) := hstep (g, h) o in safe ops g h
    end.

  (** The pure species properties and the binary diffusion coefficient at unit pressure. *)
  Definition poly4 (T : R) (c : coef) : R :=
    c0 c + c1 c * ln T + c2 c * ln T ^ 2 + c3 c * ln T ^ 3.
  Definition poly5 (T : R) (c : coef) : R := poly4 T c + c4 c * ln T ^ 4.
  Definition species_viscosity (T : R) (c : coef) : R :=
    if ck then exp (poly4 T c) else sqrt T * poly5 T c ^ 2.
  Definition species_conductivity (T : R) (c : coef) : R :=
    if ck then exp (poly4 T c) else sqrt T * poly5 T c.
  Definition unit_diffusivity (T : R) (c : coef) : R :=
    if ck then exp (poly4 T c) else T * sqrt T * poly5 T c.

  (** Mole fractions, not smaller than 1e-20. *)
  Definition xf (g : gas) (k : nat) : R := Rmax Tiny (g_x g k).
  Definition eta (g : gas) (tb : tabs) (k : nat) : R := species_viscosity (g_T g) (tb_v tb k).
  Definition lam (g : gas) (tb : tabs) (k : nat) : R := species_conductivity (g_T g) (tb_c tb k).
  Definition dij (g : gas) (tb : tabs) (i j : nat) : R := unit_diffusivity (g_T g) (tb_d tb i j).

  (** Wilke's rule (Poling et al., Eq. 9-5.14). *)
  Definition wilke (ek ej wk wj : R) : R :=
    (1 + sqrt (ek / ej) * sqrt (sqrt (wj / wk))) ^ 2 / sqrt (8 * (1 + wk / wj)).
  Definition mix_viscosity (g : gas) (tb : tabs) : R :=
    sum_n (fun k => xf g k * eta g tb k /
                    sum_n (fun j => wilke (eta g tb k) (eta g tb j) (wt g k) (wt g j) * xf g j) (nS g)) (nS g).
  Definition mix_conductivity (g : gas) (tb : tabs) : R :=
    (sum_n (fun k => xf g k * lam g tb k) (nS g) + / sum_n (fun k => xf g k / lam g tb k) (nS g)) / 2.

  Definition others (k n : nat) : list nat := filter (fun j => negb (j =? k)%nat) (seq 0 n).
  (** Sum over the other species of x_j / D_jk. *)
  Definition resistance (g : gas) (tb : tabs) (k : nat) : R :=
    sum_of (fun j => xf g j / dij g tb j k) (others k (nS g)).
  Definition mix_diff (g : gas) (tb : tabs) (k : nat) : R :=
    if (nS g =? 1)%nat then dij g tb 0 0 / g_P g
    else if rltb 0 (resistance g tb k) then (mmw g - xf g k * wt g k) / (g_P g * mmw g * resistance g tb k)
    else dij g tb k k / g_P g.
  Definition mix_diff_mole (g : gas) (tb : tabs) (k : nat) : R :=
    if (nS g =? 1)%nat then dij g tb 0 0 / g_P g
    else if rltb 0 (resistance g tb k) then (1 - xf g k) / (g_P g * resistance g tb k)
    else dij g tb k k / g_P g.
  (** [w_resistance]: sum of x_j W_j / D_jk. *)
  Definition w_resistance (g : gas) (tb : tabs) (k : nat) : R :=
    sum_of (fun j => xf g j * wt g j / dij g tb j k) (others k (nS g)).
  Definition mix_diff_mass (g : gas) (tb : tabs) (k : nat) : fp :=
    if (nS g =? 1)%nat then Fin (dij g tb 0 0 / g_P g)
    else fdiv (Fin 1) (fadd (Fin (resistance g tb k * g_P g))
      (fmul (Fin (w_resistance g tb k)) (fdiv (Fin (g_P g * xf g k)) (Fin (mmw g - wt g k * xf g k))))).
  Definition raw_flux (g : gas) (tb : tabs) (gradX : vec) (k : nat) : R :=
    - g_rho g * wt g k * mix_diff g tb k * gradX k.
  Definition net_flux (g : gas) (tb : tabs) (gradX : vec) (k : nat) : R :=
    raw_flux g tb gradX k - yk g k * sum_n (raw_flux g tb gradX) (nS g).

  (** The answer to a query.  The binary coefficients are returned by columns. *)
  Definition formula (q : query) (g : gas) (tb : tabs) : list fp :=
    match q with
    | QViscosity => [Fin (mix_viscosity g tb)]
    | QSpeciesViscosities => map (fun k => Fin (eta g tb k)) (seq 0 (nS g))
    | QConductivity => [Fin (mix_conductivity g tb)]
    | QBinary => flat_map (fun j => map (fun i => Fin (dij g tb i j / g_P g)) (seq 0 (nS g))) (seq 0 (nS g))
    | QMix => map (fun k => Fin (mix_diff g tb k)) (seq 0 (nS g))
    | QMixMole => map (fun k => Fin (mix_diff_mole g tb k)) (seq 0 (nS g))
    | QMixMass => map (mix_diff_mass g tb) (seq 0 (nS g))
    | QFluxes gradX => map (fun k => Fin (net_flux g tb gradX k)) (seq 0 (nS g))
    end.

  (** Physical data: positive temperature and weights; the polynomial for the square root of the
      viscosity is positive. *)
  Definition physical (g : gas) (tb : tabs) : Prop :=
    0 < g_T g /\ (forall k, (k < nS g)%nat -> 0 < wt g k) /\
    (ck = false -> forall k, (k < nS g)%nat -> 0 < poly5 (g_T g) (tb_v tb k)).
End Spec.
