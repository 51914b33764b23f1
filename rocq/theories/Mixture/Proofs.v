From Coq Require Import String.
From Coq Require Import Reals Lra List Bool Arith Lia.
From Verif Require Import Base.Fp Base.Outcome Base.RSum Base.Map2 Units.Model.
From Verif Require Import Phase.CompModel Phase.CompSpec Phase.CompProofs Mixture.Model Mixture.Spec.
Import ListNotations.
Open Scope R_scope.

Lemma find_name_In l e : In e l -> exists m, find_name l e = Some m.
Proof.
  induction l as [|x l IH]; simpl; [tauto|]. intros H. destruct (String.eqb_spec x e); [eauto|].
  destruct H as [H|H]; [contradiction|]. destruct (IH H) as [m E]. rewrite E. simpl. eauto.
Qed.

Section P.
  Context (els : list string).

  Notation kmol := (kmol_of els).

  Lemma kmol_nil e y : kmol [] e y = 0.
  Proof. reflexivity. Qed.
  Lemma kmol_cons s sps e v y : kmol (s :: sps) e (v :: y) = v / sp_w s * atoms els e s + kmol sps e y.
  Proof. reflexivity. Qed.

  Lemma kmol_scale sps e k y : kmol sps e (map (fun v => v / k) y) = kmol sps e y / k.
  Proof.
    revert y. induction sps as [|s sps IH]; intros [|v y]; simpl; try (unfold kmol_of; simpl; lra).
    rewrite !kmol_cons, IH. unfold Rdiv. ring.
  Qed.
  Lemma kmol_lin sps e a b f o : length f = length sps -> length o = length sps ->
    kmol sps e (map2 (fun u v => a * u + b * v) f o) = a * kmol sps e f + b * kmol sps e o.
  Proof.
    revert f o. induction sps as [|s sps IH]; intros [|u f] [|v o]; simpl; intros Hf Ho; try discriminate;
      try (unfold kmol_of; simpl; lra).
    rewrite !kmol_cons, IH by lia. unfold Rdiv. ring.
  Qed.
  Lemma rsum_lin a b f o : length f = length o ->
    rsum (map2 (fun u v => a * u + b * v) f o) = a * rsum f + b * rsum o.
  Proof.
    revert o. induction f as [|u f IH]; intros [|v o]; simpl; intros H; try discriminate; [lra|].
    rewrite IH by lia. lra.
  Qed.

  (** The loops. *)
  Lemma add_atoms_fin i s x k a :
    add_atoms i s (Fin x) (Fin k) (Fin a) =
    Fin (a + x * k * match i with Some m => sp_at s m | None => 0 end).
  Proof. destruct i; simpl; f_equal; lra. Qed.

  Lemma req_fold sps y a b : length y = length sps -> Forall (fun s => 0 < sp_w s) sps ->
    fold_left (fun (a : fp * fp) (p : species * fp) =>
        let '(o2req, sum) := a in
        let '(s, yk) := p in
        let x := fdiv yk (Fin (sp_w s)) in
        (add_atoms (elementIndex els "H") s x (Fin (1/4))
           (add_atoms (elementIndex els "S") s x (Fin 1) (add_atoms (elementIndex els "C") s x (Fin 1) o2req)),
         fadd sum yk)) (combine sps (map Fin y)) (Fin a, Fin b)
    = (Fin (a + demand els sps y), Fin (b + rsum y)).
  Proof.
    intros HL HW. revert y a b HL. induction HW as [|s sps Hs HW IH]; intros [|v y] a b HL; simpl in HL; try discriminate.
    - unfold demand, kmol_of. simpl. f_equal; f_equal; lra.
    - cbn [map combine fold_left]. rewrite fdiv_fin by lra. rewrite !add_atoms_fin. cbn [fadd].
      rewrite IH by lia. unfold demand. rewrite !kmol_cons. cbn [rsum]. unfold atoms.
      f_equal; f_equal; try lra.
  Qed.
  Lemma pres_fold sps y a b iO : length y = length sps -> Forall (fun s => 0 < sp_w s) sps ->
    elementIndex els "O" = Some iO ->
    fold_left (fun (a : fp * fp) (p : species * fp) =>
            let '(o2pres, sum) := a in
            let '(s, yk) := p in
            (fadd o2pres (fmul (fdiv yk (Fin (sp_w s))) (Fin (sp_at s iO))), fadd sum yk))
            (combine sps (map Fin y)) (Fin a, Fin b)
    = (Fin (a + kmol sps "O" y), Fin (b + rsum y)).
  Proof.
    intros HL HW HO. revert y a b HL. induction HW as [|s sps Hs HW IH]; intros [|v y] a b HL; simpl in HL; try discriminate.
    - unfold kmol_of. simpl. f_equal; f_equal; lra.
    - cbn [map combine fold_left]. rewrite fdiv_fin by lra. cbn [fadd fmul].
      rewrite IH by lia. rewrite kmol_cons. cbn [rsum]. unfold atoms. rewrite HO.
      f_equal; f_equal; lra.
  Qed.
  Lemma el_fold sps y a e i : length y = length sps -> Forall (fun s => 0 < sp_w s) sps ->
    elementIndex els e = Some i ->
    fold_left (fun z (p : species * fp) =>
              fadd z (fmul (fdiv (snd p) (Fin (sp_w (fst p)))) (Fin (sp_at (fst p) i))))
            (combine sps (map Fin y)) (Fin a)
    = Fin (a + kmol sps e y).
  Proof.
    intros HL HW HO. revert y a HL. induction HW as [|s sps Hs HW IH]; intros [|v y] a HL; simpl in HL; try discriminate.
    - unfold kmol_of. simpl. f_equal; lra.
    - cbn [map combine fold_left fst snd]. rewrite fdiv_fin by lra. cbn [fadd fmul].
      rewrite IH by lia. rewrite kmol_cons. unfold atoms. rewrite HO.
      f_equal; lra.
  Qed.

  Context (sps : list species) (Hgas : gas_ok els sps).
  Notation comp := (composition sps).
  Notation deficit := (deficit els sps).
  Notation demand := (demand els sps).
  Notation supply := (supply els sps).

  Lemma Hw : Forall (fun s => 0 < sp_w s) sps.
  Proof. apply Hgas. Qed.

  Lemma feqb_fin_ne a b : a <> b -> feqb (Fin a) (Fin b) = false.
  Proof. intros H. simpl. now apply reqb_false. Qed.
  Lemma feqb_fin_eq a : feqb (Fin a) (Fin a) = true.
  Proof. simpl. now apply reqb_true. Qed.

  Lemma o2Required_fin y : length y = length sps -> rsum y <> 0 ->
    o2Required els sps (map Fin y) = Ok (Fin (demand y / rsum y)).
  Proof.
    intros HL Hs. unfold o2Required. cbv zeta. rewrite req_fold by (auto; apply Hw).
    cbv beta iota. rewrite feqb_fin_ne by lra. rewrite fdiv_fin by lra. do 2 f_equal. rewrite !Rplus_0_l. reflexivity.
  Qed.
  Lemma o2Present_fin y : length y = length sps -> rsum y <> 0 ->
    o2Present els sps (map Fin y) = Ok (Fin (supply y / rsum y)).
  Proof.
    intros HL Hs. unfold o2Present. destruct Hgas as [HW HO].
    destruct (find_name_In els "O" HO) as [iO E]. fold (elementIndex els "O") in E. rewrite E.
    rewrite (pres_fold _ _ _ _ _ HL HW E). cbv beta iota. rewrite feqb_fin_ne by lra.
    cbn [fmul]. rewrite fdiv_fin by lra. do 2 f_equal. rewrite !Rplus_0_l. unfold supply. unfold Rdiv. ring.
  Qed.
  Lemma o2Net_fin y : length y = length sps -> rsum y <> 0 ->
    o2Net els sps (map Fin y) = Ok (Fin (deficit y)).
  Proof.
    intros HL Hs. unfold o2Net. rewrite o2Required_fin, o2Present_fin by auto. cbn [obind fsub fopp fadd].
    do 2 f_equal. unfold Spec.deficit, Rdiv. ring.
  Qed.
  (** With a zero sum everything throws. *)
  Lemma o2Net_zero y : length y = length sps -> rsum y = 0 -> o2Net els sps (map Fin y) = Err.
  Proof.
    intros HL Hs. unfold o2Net, o2Required. cbv zeta. rewrite req_fold by (auto; apply Hw).
    cbv beta iota. rewrite Hs. replace (0 + 0) with 0 by lra. rewrite feqb_fin_eq. reflexivity.
  Qed.
  Lemma elementalFraction_fin e y : In e els -> length y = length sps ->
    elementalFraction sps (elementIndex els e) (map Fin y) = Ok (Fin (kmol sps e y)).
  Proof.
    intros He HL. destruct (find_name_In els e He) as [i E]. fold (elementIndex els e) in E.
    unfold elementalFraction. rewrite E. rewrite (el_fold _ _ _ _ _ HL Hw E). do 2 f_equal. lra.
  Qed.

  (** Compositions. *)
  Lemma comp_sum y : comp y -> 0 < rsum y.
  Proof. intros (_&A&B). now apply rsum_pos. Qed.
  Lemma comp_len y : comp y -> length y = length sps.
  Proof. now intros (A&_). Qed.

  Lemma per_kg_len y : length (per_kg y) = length y.
  Proof. apply map_length. Qed.
  Lemma per_kg_sum y : rsum y <> 0 -> rsum (per_kg y) = 1.
  Proof. intros H. unfold per_kg. rewrite rsum_map_div. now field. Qed.
  Lemma per_kg_kmol e y : kmol sps e (per_kg y) = kmol sps e y / rsum y.
  Proof. apply kmol_scale. Qed.
  Lemma per_kg_one y : rsum y = 1 -> per_kg y = y.
  Proof.
    intros H. unfold per_kg. rewrite H. rewrite <- (map_id y) at 2. apply map_ext. intros. lra.
  Qed.
  Lemma per_kg_idem y : rsum y <> 0 -> per_kg (per_kg y) = per_kg y.
  Proof. intros. apply per_kg_one, per_kg_sum; auto. Qed.
  Lemma deficit_kg y : rsum y <> 0 -> deficit (per_kg y) = deficit y.
  Proof.
    intros H. unfold Spec.deficit, Spec.demand, Spec.supply. rewrite !per_kg_kmol, per_kg_sum by auto. field. auto.
  Qed.
  Lemma comp_per_kg y : comp y -> comp (per_kg y).
  Proof.
    intros C. pose proof (comp_sum y C) as P. destruct C as (A&B&E). repeat split.
    - now rewrite per_kg_len.
    - unfold all_nonneg, per_kg in *. apply Forall_map. eapply Forall_impl; [|exact B]. intros a Ha. simpl in Ha.
      apply Rmult_le_pos; [auto|]. left. now apply Rinv_0_lt_compat.
    - unfold some_pos, per_kg in *. apply Exists_exists. apply Exists_exists in E. destruct E as (x&I&Hx).
      exists (x / rsum y). split; [now apply (in_map (fun v => v / rsum y))|]. now apply Rdiv_lt_0_compat.
  Qed.
  Lemma comp_of_sum y : length y = length sps -> all_nonneg y -> 0 < rsum y -> comp y.
  Proof.
    intros HL HN HS. repeat split; auto. unfold some_pos.
    clear HL. induction HN as [|v y Hv HN IH]; simpl in *; [lra|].
    destruct (Rlt_dec 0 v); [left; auto|]. right. apply IH. lra.
  Qed.

  Lemma mix_len a b f o : length f = length sps -> length o = length sps ->
    length (mix a b f o) = length sps.
  Proof. intros. unfold mix. rewrite map2_length; rewrite !per_kg_len; lia. Qed.
  Lemma mix_sum a b f o : comp f -> comp o -> rsum (mix a b f o) = a + b.
  Proof.
    intros Hf Ho. unfold mix. rewrite rsum_lin by (rewrite !per_kg_len; destruct Hf, Ho; lia).
    rewrite !per_kg_sum by (apply Rgt_not_eq, comp_sum; auto). lra.
  Qed.
  Lemma mix_kmol e a b f o : comp f -> comp o ->
    kmol sps e (mix a b f o) = a * (kmol sps e f / rsum f) + b * (kmol sps e o / rsum o).
  Proof.
    intros Hf Ho. unfold mix. rewrite kmol_lin by (rewrite per_kg_len; apply comp_len; auto).
    now rewrite !per_kg_kmol.
  Qed.
  Lemma mix_net a b f o : comp f -> comp o ->
    demand (mix a b f o) - supply (mix a b f o) = a * deficit f + b * deficit o.
  Proof.
    intros Hf Ho. unfold Spec.deficit, Spec.demand, Spec.supply. rewrite !mix_kmol by auto. unfold Rdiv. ring.
  Qed.
  Lemma mix_deficit a b f o : comp f -> comp o -> a + b <> 0 ->
    deficit (mix a b f o) = (a * deficit f + b * deficit o) / (a + b).
  Proof.
    intros Hf Ho Hs. unfold Spec.deficit at 1. rewrite mix_net, mix_sum by auto. reflexivity.
  Qed.
  Lemma mix_nonneg a b f o : 0 <= a -> 0 <= b -> comp f -> comp o -> all_nonneg (mix a b f o).
  Proof.
    intros Ha Hb Hf Ho. unfold mix, all_nonneg. apply Forall_map2. intros u v Hu Hv.
    destruct (comp_per_kg f Hf) as (_&A&_), (comp_per_kg o Ho) as (_&B&_).
    unfold all_nonneg in A, B. rewrite Forall_forall in A, B. specialize (A u Hu). specialize (B v Hv). simpl in *.
    pose proof (Rmult_le_pos a u Ha A). pose proof (Rmult_le_pos b v Hb B). lra.
  Qed.
  Lemma mix_kg_l a b f o : rsum f <> 0 -> mix a b (per_kg f) o = mix a b f o.
  Proof. intros. unfold mix. now rewrite per_kg_idem. Qed.
  Lemma mix_kg_r a b f o : rsum o <> 0 -> mix a b f (per_kg o) = mix a b f o.
  Proof. intros. unfold mix. now rewrite (per_kg_idem o). Qed.

  (** Basis conversion. *)
  Definition conv (b : basis) (x : list R) : list R :=
    match b with MassBasis => x | MolarBasis => per_kg (masses sps MolarBasis x) end.

  Lemma masses_len b x : length x = length sps -> length (masses sps b x) = length sps.
  Proof. destruct b; simpl; auto. intros. now apply map2_length. Qed.
  Lemma masses_comp b x : comp x -> comp (masses sps b x).
  Proof.
    intros C. destruct b; [exact C|]. pose proof Hw as HW. destruct C as (A&B&E).
    split; [now apply masses_len|]. simpl.
    clear Hgas. revert x A B E. induction HW as [|s l Hs HW IH]; intros [|v x] A B E; simpl in *; try discriminate.
    - inversion E.
    - inversion B; subst. pose proof (Rmult_le_pos v (sp_w s)). split.
      + constructor; [lra|]. destruct (Exists_dec (fun m => 0 < m) x) as [X|X]. { intros m. destruct (Rlt_dec 0 m); auto. }
        * apply (IH x); auto.
        * unfold all_nonneg. apply Forall_map2. intros p q Hp Hq. rewrite Forall_forall in *.
          apply Rmult_le_pos; [auto|]. left. apply HW; auto.
      + inversion E; subst.
        * left. now apply Rmult_lt_0_compat.
        * right. apply (IH x); auto.
  Qed.
  Lemma conv_comp b x : comp x -> comp (conv b x).
  Proof. intros C. destruct b; [exact C|]. apply comp_per_kg, masses_comp; auto. Qed.
  Lemma conv_kg b x : comp x -> per_kg (conv b x) = per_kg (masses sps b x).
  Proof. intros C. destruct b; [reflexivity|]. apply per_kg_idem. apply Rgt_not_eq, comp_sum, masses_comp; auto. Qed.
  Lemma conv_deficit b x : comp x -> deficit (conv b x) = deficit (masses sps b x).
  Proof. intros C. destruct b; [reflexivity|]. apply deficit_kg. apply Rgt_not_eq, comp_sum, masses_comp; auto. Qed.
  Lemma conv_mix b x y u v : comp x -> comp y ->
    mix u v (conv b x) (conv b y) = mix u v (masses sps b x) (masses sps b y).
  Proof. intros Hx Hy. unfold mix. now rewrite !conv_kg. Qed.

  Lemma masses_wsum x : length x = length sps -> rsum (map2 Rmult x (mw sps)) = rsum (masses sps MolarBasis x).
  Proof. intros. simpl. unfold mw. now rewrite map2_map_r. Qed.

  Lemma toMass_fin b x : comp x -> toMass sps b (map Fin x) = Ok (map Fin (conv b x)).
  Proof.
    intros C. destruct b; [reflexivity|]. unfold toMass, moleFractionsToMassFractions. cbv zeta.
    rewrite mulmw_fin, fsum_fin, masses_wsum by apply C.
    pose proof (comp_sum _ (masses_comp MolarBasis x C)) as P.
    rewrite feqb_fin_ne by lra. rewrite fdiv_fin by lra. f_equal. unfold mw. rewrite map2_map_l, map2_map_r.
    unfold conv, per_kg, masses. rewrite !map_map2. apply map2_ext. intros. cbn [fmul]. f_equal.
    unfold Rdiv. ring.
  Qed.

  Lemma AFR_fin f o : comp f -> comp o -> 0 <= deficit f -> deficit o < 0 ->
    stoichAirFuelRatio els sps (map Fin f) (map Fin o) MassBasis = Ok (Fin (deficit f / - deficit o)).
  Proof.
    intros Hf Ho Df Do. unfold stoichAirFuelRatio. cbn [toMass obind].
    rewrite !o2Net_fin by (auto using comp_len; apply Rgt_not_eq, comp_sum; auto). cbn [obind].
    replace (fltb (Fin (deficit f)) (Fin 0)) with false by (symmetry; simpl; now apply rltb_false).
    replace (fltb (Fin 0) (Fin (deficit o))) with false by (symmetry; simpl; apply rltb_false; lra).
    cbn [orb]. rewrite feqb_fin_ne by lra. cbn [fopp]. rewrite fdiv_fin by lra. reflexivity.
  Qed.
  Lemma AFR_basis f o b : comp f -> comp o ->
    stoichAirFuelRatio els sps (map Fin f) (map Fin o) b =
    stoichAirFuelRatio els sps (map Fin (conv b f)) (map Fin (conv b o)) MassBasis.
  Proof. intros. unfold stoichAirFuelRatio. rewrite !toMass_fin by auto. reflexivity. Qed.

  (** The blend loop. *)
  Lemma blend_fin a b f o : comp f -> comp o ->
    blend (Fin a) (Fin b) (map Fin f) (map Fin o) = map Fin (mix a b f o).
  Proof.
    intros Hf Ho. unfold blend. rewrite !fsum_fin, map2_map_l, map2_map_r. unfold mix, per_kg.
    rewrite map2_map_l, map2_map_r, map_map2. apply map2_ext. intros u v _ _. cbn [fmul].
    pose proof (comp_sum f Hf). pose proof (comp_sum o Ho).
    rewrite !fdiv_fin by lra. cbn [fadd]. f_equal. unfold Rdiv. ring.
  Qed.

  (** Setting mass fractions. *)
  Definition kmoles (y : list R) : R := rsum (map2 (fun y s => y / sp_w s) y sps).
  Lemma kmoles_pos y : comp y -> 0 < kmoles y.
  Proof.
    intros (A&B&E). unfold kmoles. pose proof Hw as HW. clear Hgas.
    revert y A B E. induction HW as [|s l Hs HW IH]; intros [|v y] A B E; simpl in *; try discriminate.
    - inversion E.
    - inversion B; subst. assert (0 <= rsum (map2 (fun y s => y / sp_w s) y l)) as Q.
      { apply rsum_nonneg. apply Forall_map2. intros p q Hp Hq. rewrite Forall_forall in *.
        apply Rmult_le_pos; [auto|]. left. apply Rinv_0_lt_compat. apply HW; auto. }
      assert (0 <= v / sp_w s) by (apply Rmult_le_pos; [auto|]; left; now apply Rinv_0_lt_compat).
      inversion E; subst.
      + assert (0 < v / sp_w s) by now apply Rdiv_lt_0_compat. lra.
      + assert (0 < rsum (map2 (fun y s => y / sp_w s) y l)) by (apply IH; auto). lra.
  Qed.

  Lemma ym_sum y : fsum (map2 (fun v m => fmul v (Fin m)) (map Fin y) (rmw (mw sps))) = Fin (kmoles y).
  Proof.
    unfold rmw, mw. rewrite map_map, mulmw_fin, fsum_fin, map2_map_r. f_equal. unfold kmoles. f_equal.
    apply map2_ext. intros. unfold Rdiv. ring.
  Qed.

  Definition set_comp (c : st) (y : list R) : st :=
    mk_st (s_T c) (s_D c) (s_P c) (map Fin y)
      (map2 (fun v m => fmul v (Fin m)) (map Fin y) (rmw (mw sps))) (Fin (1 / kmoles y)) (S (s_num c)).

  Lemma setY_fin c y : comp y -> setY sps c (map Fin y) = (Ok tt, set_comp c (per_kg y)).
  Proof.
    intros C. unfold setY, setMassFractions. cbv zeta. rewrite clip_fin, (clip_nn y) by apply C.
    rewrite fsum_fin. pose proof (comp_sum y C). rewrite fdiv_fin by lra. rewrite scale_fin.
    replace (map (fun v => v * (1 / rsum y)) y) with (per_kg y)
      by (unfold per_kg; apply map_ext; intros; unfold Rdiv; ring).
    rewrite ym_sum. pose proof (kmoles_pos _ (comp_per_kg y C)). rewrite fdiv_fin by lra.
    reflexivity.
  Qed.
  Lemma setYn_fin c y : comp y -> setY_NoNorm sps c (map Fin y) = (Ok tt, set_comp c y).
  Proof.
    intros C. unfold setY_NoNorm, setMassFractions_NoNorm. cbv zeta.
    rewrite ym_sum. pose proof (kmoles_pos _ C). rewrite fdiv_fin by lra.
    reflexivity.
  Qed.

  Lemma GC_pos : 0 < GasConstant.
  Proof. unfold GasConstant, Avogadro, Boltzmann. apply Rmult_lt_0_compat; (apply Rmult_lt_0_compat; [lra|apply powerRZ_lt; lra]). Qed.

  Lemma pressure_in c T D Y : in_state sps c T D Y ->
    pressure c = Fin (GasConstant * (D * kmoles Y) * T).
  Proof.
    intros (HT&HD&C&S1&E1&E2&E3&E4). unfold pressure, molarDensity. rewrite E1, E2, E4. fold (kmoles Y).
    pose proof (kmoles_pos Y C) as P. rewrite fdiv_fin.
    2:{ apply Rgt_not_eq. apply Rdiv_lt_0_compat; lra. }
    cbn [fmul]. do 3 f_equal. field. lra.
  Qed.

  (** Composition set to [y] and pressure back to the earlier one. *)
  Definition set_all (c : st) (y : list R) (D : R) : st := with_D (set_comp c y) (Fin D).

  Lemma setP_after c T D Y y : in_state sps c T D Y -> comp y -> rsum y = 1 ->
    let D' := D * kmoles Y / kmoles y in
    setPressure (set_comp c y) (pressure c) = (Ok tt, set_all c y D') /\
    in_state sps (set_all c y D') T D' y /\
    pressure (set_all c y D') = pressure c.
  Proof.
    intros I Cy Sy D'. pose proof (pressure_in _ _ _ _ I) as EP.
    destruct I as (HT&HD&C&S1&E1&E2&E3&E4).
    pose proof (kmoles_pos Y C) as PY. pose proof (kmoles_pos y Cy) as Py. pose proof GC_pos as PG.
    assert (0 < D') as PD'.
    { unfold D'. apply Rdiv_lt_0_compat; auto. now apply Rmult_lt_0_compat. }
    assert (in_state sps (set_all c y D') T D' y) as I'.
    { unfold in_state, set_all, set_comp. simpl. repeat split; auto; apply Cy. }
    split; [|split].
    - rewrite EP. unfold setPressure, RT. unfold set_comp at 2 3. cbn [s_mmw s_T]. rewrite E1. cbn [fmul].
      assert (T * GasConstant <> 0) as NZ by (apply Rgt_not_eq; now apply Rmult_lt_0_compat).
      rewrite fdiv_fin by auto.
      replace (GasConstant * (D * kmoles Y) * T * (1 / kmoles y) / (T * GasConstant)) with D'
        by (unfold D'; field; lra).
      unfold setDensity. cbn [is_compressible negb fltb].
      apply rltb_true in PD'. rewrite PD'. reflexivity.
    - exact I'.
    - rewrite (pressure_in _ _ _ _ I'), EP. f_equal. unfold D'. field. lra.
  Qed.
End P.
