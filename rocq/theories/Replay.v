(** * The unit tests of the repository, replayed on the model in f64

    These are tests of the transcription, not proofs of properties: the inputs
    and expected values are copied from the repository's own unit tests and
    snapshots.  [gauss] stands in for nalgebra's LU, so solutions are compared
    to a relative accuracy of 1e-12; everything else is compared exactly. *)
From Coq Require Import ZArith NArith List Reals.
From Flocq Require Import Core BinarySingleNaN.
From Verif Require Import Num ModelTypes ModelWs ModelHx ModelStateEq ModelEngine ModelApi B64 Fixture.
Import ListNotations.
Local Open Scope bool_scope.

(** src/state_equations/test_inputs/ideal_gas_hydrogen.json *)
Definition ideal_gas_hydrogen_inputs : Inputs b64 :=
  mkInputs (n_lit (10000000) (0)) (n_lit (5744800) (0))
    (mkWsIn (n_lit (1596) (-7)) (n_lit (77256) (-4)) (n_lit (648670) (0)) (n_lit (912010) (0)) (n_lit (77256) (-11)) (n_lit (-246) (-4)) n0 (n_lit (10217) (0)) n0 n0)
    (mkHxIn (n_lit (4) (-5)) (n_lit (66796) (-4)) (n_lit (1152300) (0)) (n_lit (1618400) (0)) (n_lit (66796) (-11)) n0)
    (mkRegIn (n_lit (1) (-4)) (n_lit (41664) (-4)) (n_lit (3416200) (0)) (n_lit (1762400) (0)) (n_lit (8842900) (0)) (n_lit (41664) (-11)) n0)
    (mkHxIn (n_lit (1) (-4)) (n_lit (27774) (-4)) (n_lit (6476300) (0)) (n_lit (9045700) (0)) (n_lit (27774) (-11)) n0)
    (mkWsIn (n_lit (732) (-7)) (n_lit (31412) (-4)) (n_lit (5402500) (0)) (n_lit (7555000) (0)) (n_lit (31412) (-11)) (n_lit (-41) (-4)) n0 (n_lit (10552) (0)) (n_lit (-236) (-4)) n0).
(** src/state_equations/test_inputs/refprop_hydrogen.json *)
Definition refprop_hydrogen_inputs : Inputs b64 :=
  mkInputs (n_lit (10000000) (0)) (n_lit (9083000) (0))
    (mkWsIn (n_lit (1596) (-7)) (n_lit (65944) (-4)) (n_lit (3203000) (0)) (n_lit (4719500) (0)) (n_lit (62551) (-11)) (n_lit (-181) (-4)) (n_lit (-18) (-4)) (n_lit (10424) (0)) n0 n0)
    (mkHxIn (n_lit (4) (-5)) (n_lit (63499) (-4)) (n_lit (3349100) (0)) (n_lit (4924000) (0)) (n_lit (60334) (-11)) (n_lit (-16) (-4)))
    (mkRegIn (n_lit (1) (-4)) (n_lit (40295) (-4)) (n_lit (5636300) (0)) (n_lit (5070000) (0)) (n_lit (12182000) (0)) (n_lit (38973) (-11)) (n_lit (-19996) (-8)))
    (mkHxIn (n_lit (1) (-4)) (n_lit (27162) (-4)) (n_lit (8708200) (0)) (n_lit (12390000) (0)) (n_lit (26569) (-11)) (n_lit (61808) (-8)))
    (mkWsIn (n_lit (732) (-7)) (n_lit (30751) (-4)) (n_lit (7599200) (0)) (n_lit (10851000) (0)) (n_lit (29984) (-11)) (n_lit (-39) (-4)) (n_lit (3966) (-7)) (n_lit (10577) (0)) (n_lit (-236) (-4)) n0).

Definition solution_close (d : Z) (s e : Solution b64) : bool :=
  let c := rel_close d in
  c (so_m_dot_ck s) (so_m_dot_ck e) && c (so_m_dot_kr s) (so_m_dot_kr e) &&
  c (so_m_dot_rl s) (so_m_dot_rl e) && c (so_m_dot_le s) (so_m_dot_le e) &&
  c (so_Q_dot_k s) (so_Q_dot_k e) && c (so_Q_dot_r s) (so_Q_dot_r e) &&
  c (so_Q_dot_l s) (so_Q_dot_l e) && c (so_dTc_dt s) (so_dTc_dt e) &&
  c (so_dTe_dt s) (so_dTe_dt e) && c (so_dP_dt s) (so_dP_dt e).

(** src/state_equations/solver.rs:248-265 *)
Example replay_ideal_gas_hydrogen :
  match solve gauss ideal_gas_hydrogen_inputs FlowDirection_default with
  | Ok s => solution_close 12 s (mkSolution (n_lit (-369671135868011) (-16)) (n_lit (-4739861686084307) (-17)) (n_lit (-6366524032668251) (-17)) (n_lit (-7450887512267486) (-17)) (n_lit (11687524503992354) (-12)) (n_lit (4367913029835215) (-10)) (n_lit (8320874490054866) (-11)) (n_lit (28456263552639434) (-13)) (n_lit (31166869984699082) (-12)) (n_lit (39042395031296676) (-8)))
  | Err _ => false
  end = true.
Proof. vm_compute. reflexivity. Qed.

(** src/state_equations/solver.rs:300-317 *)
Example replay_refprop_hydrogen :
  match solve gauss refprop_hydrogen_inputs FlowDirection_default with
  | Ok s => solution_close 12 s (mkSolution (n_lit (-28538301905757048) (-18)) (n_lit (-38613913985699036) (-18)) (n_lit (-5488487354380802) (-17)) (n_lit (-6597724838021778) (-17)) (n_lit (21675379440630473) (-12)) (n_lit (3925766689847019) (-10)) (n_lit (6076916953666401) (-11)) (n_lit (4548878957390213) (-12)) (n_lit (8995893667930639) (-12)) (n_lit (41749312493544215) (-8)))
  | Err _ => false
  end = true.
Proof. vm_compute. reflexivity. Qed.

(** ** Fluids, src/fluid/ideal_gas.rs:140-230 *)
Definition beq (x y : b64) : bool := Beqb x y.
Definition all_props (g : IdealGas b64) (t p : b64) : list b64 :=
  [ig_dens g t p; ig_inte g t p; ig_enth g t p; ig_cp g t p; ig_dd_dP_T g t p; ig_dd_dT_P g t p;
   ig_du_dP_T g t p; ig_du_dT_P g t p].
Fixpoint list_beq (a b : list b64) : bool :=
  match a, b with
  | [], [] => true
  | x :: a', y :: b' => beq x y && list_beq a' b'
  | _, _ => false
  end.

(** Expected values are written as [m * 2^e], the exact value of the f64 that
    the decimal in the comment denotes. *)

(** check_poly: 1, 3.5125, 15 *)
Example replay_poly :
  let c := A6 (n_lit 1 0) (n_lit 25 (-1)) (n_lit 3 0) (n_lit 22 (-1)) (n_lit 13 (-1)) (n_lit 5 0) in
  list_beq [poly c n0; poly c nhalf; poly c n1] [(b64_norm (1) (0)); (b64_norm (3954723422784717) (-50)); (b64_norm (15) (0))] = true.
Proof. vm_compute. reflexivity. Qed.

(** 9.628206794625536, 778985, 1298292.5, 5193.17, 9.628206794625535e-7,
    -0.01925641358925107, 0, 3115.94 *)
Example replay_helium :
  list_beq (all_props IdealGas_helium (n_lit 500 0) (n_lit 10 6))
    [(b64_norm (5420198566565205) (-49)); (b64_norm (778985) (0)); (b64_norm (2596585) (-1)); (b64_norm (2854975400008745) (-39)); (b64_norm (4546792105707741) (-72)); (b64_norm (-2775141666081385) (-57)); n0; (b64_norm (6852024522904699) (-41))] = true.
Proof. vm_compute. reflexivity. Qed.

(** 4.849425343096843, 2462866.0072656246, 3493916.0072656246, 14476.640555625,
    4.849425343096843e-7, -0.009698850686193685, 0, 10352.440555624999 *)
Example replay_hydrogen :
  list_beq (all_props IdealGas_hydrogen (n_lit 500 0) (n_lit 10 6))
    [(b64_norm (5459967542032995) (-50)); (b64_norm (2644482238908989) (-30)); (b64_norm (3751563746544189) (-30)); (b64_norm (3979308655510825) (-38)); (b64_norm (572519092535479) (-70)); (b64_norm (-5591006763041787) (-59)); n0; (b64_norm (711414297923095) (-36))] = true.
Proof. vm_compute. reflexivity. Qed.

(** check_at_reference *)
Example replay_reference :
  forallb (fun g => beq (ig_enth g (ig_ref_temp g) (n_lit 101 3)) n0 &&
                    beq (ig_inte g (ig_ref_temp g) (n_lit 101 3)) n0)
    [IdealGas_helium; IdealGas_hydrogen] = true.
Proof. vm_compute. reflexivity. Qed.

(** ** Averages, src/engine/state.rs:558-678 *)
Definition no_values : Values b64 := mkValues [] [] [] [] [] [] [] [] [] [] [].
Definition pressure_beq (a : outcome (Pressure b64)) (avg mx mn tz : b64) : bool :=
  match a with
  | Ret p => beq (pr_avg p) avg && beq (pr_max p) mx && beq (pr_min p) mn && beq (pr_t_zero p) tz
  | Panic _ => false
  end.
Example replay_pressure :
  pressure_beq (Pressure_from_values
    (mkValues [n0; (b64_norm (5) (1))] [(b64_norm (1) (0)); (b64_norm (1) (0))] [] [] [] [] [] [] [] [] [])) n1 n1 n1 n1 &&
  pressure_beq (Pressure_from_values
    (mkValues [n0; (b64_norm (1) (0)); (b64_norm (1) (1))] [(b64_norm (25) (2)); (b64_norm (25) (3)); (b64_norm (25) (2))] [] [] [] [] [] [] [] [] []))
    (b64_norm (75) (1)) (b64_norm (25) (3)) (b64_norm (25) (2)) (b64_norm (25) (2)) &&
  pressure_beq (Pressure_from_values
    (mkValues [n0; (b64_norm (1) (-1)); (b64_norm (1) (0)); (b64_norm (3) (-1)); (b64_norm (1) (1)); (b64_norm (5) (-1)); (b64_norm (3) (0)); (b64_norm (7) (-1)); (b64_norm (1) (2))]
       [(b64_norm (75) (4)); (b64_norm (625) (2)); (b64_norm (95) (1)); (b64_norm (85) (1)); (b64_norm (25) (7)); (b64_norm (275) (5)); (b64_norm (1625) (2)); (b64_norm (175) (3)); (b64_norm (25) (3))] [] [] [] [] [] [] [] [] []))
    (b64_norm (5865) (-1)) (b64_norm (275) (5)) (b64_norm (85) (1)) (b64_norm (75) (4)) = true.
Proof. vm_compute. reflexivity. Qed.

Definition flows_beq (a : outcome (MassFlows b64)) (c r h : b64) : bool :=
  match a with
  | Ret p => beq (mf_chx p) c && beq (mf_regen p) r && beq (mf_hhx p) h
  | Panic _ => false
  end.
Example replay_mass_flows :
  flows_beq (MassFlows_from_values
    (mkValues [n0; (b64_norm (5) (0))] [] [] [] [(b64_norm (1) (0)); (b64_norm (1) (0))] [(b64_norm (1) (1)); (b64_norm (1) (1))] [(b64_norm (3) (0)); (b64_norm (3) (0))] [(b64_norm (1) (2)); (b64_norm (1) (2))] [] [] []))
    (b64_norm (3) (-1)) (b64_norm (5) (-1)) (b64_norm (7) (-1)) &&
  flows_beq (MassFlows_from_values
    (mkValues [n0; (b64_norm (5) (0)); (b64_norm (5) (1))] [] [] [] [(b64_norm (1) (0)); (b64_norm (1) (0)); (b64_norm (1) (0))] [(b64_norm (-1) (1)); (b64_norm (-1) (1)); (b64_norm (-1) (1))]
       [(b64_norm (-3) (0)); (b64_norm (-3) (0)); (b64_norm (-3) (0))] [(b64_norm (1) (2)); (b64_norm (-1) (2)); (b64_norm (-3) (0))] [] [] []))
    (b64_norm (1) (-1)) (b64_norm (5) (-1)) (b64_norm (21) (-3)) = true.
Proof. vm_compute. reflexivity. Qed.

Definition heats_beq (a : outcome (HeatFlows b64)) (c r h : b64) : bool :=
  match a with
  | Ret p => beq (hf_chx p) c && beq (hf_regen p) r && beq (hf_hhx p) h
  | Panic _ => false
  end.
Example replay_heat_flows :
  heats_beq (HeatFlows_from_values
    (mkValues [n0; (b64_norm (25) (1)); (b64_norm (25) (2))] [] [] [] [] [] [] [] [(b64_norm (1) (0)); (b64_norm (1) (0)); (b64_norm (1) (0))] [(b64_norm (1) (0)); n0; (b64_norm (-1) (0))] [n0; (b64_norm (5) (2)); n0])
    (b64_norm (75) (2)) (b64_norm (25) (5)) ThermalResistance_default) (b64_norm (1) (0)) n0 (b64_norm (5) (1)) &&
  heats_beq (HeatFlows_from_values
    (mkValues [n0; (b64_norm (1) (0))] [] [(b64_norm (25) (4)); (b64_norm (25) (4))] [(b64_norm (75) (3)); (b64_norm (75) (3))] [] [] [] [] [(b64_norm (1) (0)); (b64_norm (1) (0))] [] [(b64_norm (5) (0)); (b64_norm (5) (0))])
    (b64_norm (75) (2)) (b64_norm (25) (5)) (mkTR n1 (b64_norm (25) (1)))) (b64_norm (101) (0)) n0 (b64_norm (9) (0)) = true.
Proof. vm_compute. reflexivity. Qed.

(** src/performance.rs:243-255 *)
Example replay_pressure_drop :
  match calculate_hx_pressure_drop [(b64_norm (5) (1)); (b64_norm (5) (1))] [(b64_norm (5) (2)); (b64_norm (5) (2))] [(b64_norm (75) (2)); (b64_norm (75) (2))] n2 with
  | Ret d => list_beq d [(b64_norm (3602879701896397) (-55)); (b64_norm (3602879701896397) (-55))]
  | Panic _ => false
  end = true.
Proof. vm_compute. reflexivity. Qed.

(** src/ws/sinusoidal_drive.rs:134-209, with a series for sine and cosine: the
    compression space is largest and at rest at time zero (exactly), volumes at
    quarter, half and three quarters of the cycle to a relative 1e-12 *)
Definition replay_drive : SinusoidalDrive b64 :=
  mkSin (n_lit 10 0) (n_lit 90 0) (mkSinGeo (n_lit 1 (-5)) (n_lit 2 (-4)))
    (mkSinGeo (n_lit 3 (-5)) (n_lit 4 (-4))) ThermalResistance_default Parasitics_default.
Example replay_sinusoidal :
  let v t := sin_volumes replay_drive t in
  beq (v_value (fst (v n0))) (n_add (n_lit 1 (-5)) (n_lit 2 (-4))) &&
  beq (v_deriv (fst (v n0))) n0 &&
  rel_close 12 (v_value (snd (v (n_lit 25 (-3))))) (n_lit 3 (-5)) &&
  rel_close 10 (v_value (fst (v (n_lit 5 (-2))))) (n_lit 1 (-5)) &&
  rel_close 8 (v_value (snd (v (n_lit 75 (-3))))) (n_add (n_lit 3 (-5)) (n_lit 4 (-4))) = true.
Proof. vm_compute. reflexivity. Qed.
