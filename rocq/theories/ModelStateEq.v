(** * Model of [src/state_equations.rs] and [src/state_equations/*.rs] *)
From Coq Require Import ZArith NArith List.
From Verif Require Import Num ModelTypes.
Import ListNotations.
Local Open Scope num_scope.

(** ** Data *)

(** src/state_equations.rs:28-32 *)
Record Conditions (F : Type) := mkCond { cd_P : F; cd_T_c : F; cd_T_e : F }.
(** src/state_equations.rs:37-48 *)
Record Solution (F : Type) := mkSolution {
  so_m_dot_ck : F; so_m_dot_kr : F; so_m_dot_rl : F; so_m_dot_le : F;
  so_Q_dot_k : F; so_Q_dot_r : F; so_Q_dot_l : F;
  so_dTc_dt : F; so_dTe_dt : F; so_dP_dt : F }.
(** src/state_equations.rs:52-56 *)
Record SeValues (F : Type) := mkSeValues {
  sv_time : F; sv_conditions : Conditions F; sv_solution : Solution F }.
(** src/state_equations/inputs.rs:18-29 *)
Record WorkingSpaceIn (F : Type) := mkWsIn {
  wi_vol : F; wi_dens : F; wi_inte : F; wi_enth : F;
  wi_dd_dP_T : F; wi_dd_dT_P : F; wi_du_dP_T : F; wi_du_dT_P : F;
  wi_dV_dt : F; wi_Q_dot : F }.
(** src/state_equations/inputs.rs:34-41 *)
Record HeatExchangerIn (F : Type) := mkHxIn {
  hi_vol : F; hi_dens : F; hi_inte : F; hi_enth : F; hi_dd_dP_T : F; hi_du_dP_T : F }.
(** src/state_equations/inputs.rs:46-54 *)
Record RegeneratorIn (F : Type) := mkRegIn {
  gi_vol : F; gi_dens : F; gi_inte : F; gi_enth_cold : F; gi_enth_hot : F;
  gi_dd_dP_T : F; gi_du_dP_T : F }.
(** src/state_equations/inputs.rs:5-13 *)
Record Inputs (F : Type) := mkInputs {
  in_pres : F; in_enth_norm : F; in_comp : WorkingSpaceIn F; in_chx : HeatExchangerIn F;
  in_regen : RegeneratorIn F; in_hhx : HeatExchangerIn F; in_exp : WorkingSpaceIn F }.

Arguments mkCond {F}. Arguments cd_P {F}. Arguments cd_T_c {F}. Arguments cd_T_e {F}.
Arguments mkSolution {F}. Arguments so_m_dot_ck {F}. Arguments so_m_dot_kr {F}.
Arguments so_m_dot_rl {F}. Arguments so_m_dot_le {F}. Arguments so_Q_dot_k {F}.
Arguments so_Q_dot_r {F}. Arguments so_Q_dot_l {F}. Arguments so_dTc_dt {F}.
Arguments so_dTe_dt {F}. Arguments so_dP_dt {F}.
Arguments mkSeValues {F}. Arguments sv_time {F}. Arguments sv_conditions {F}.
Arguments sv_solution {F}.
Arguments mkWsIn {F}. Arguments wi_vol {F}. Arguments wi_dens {F}. Arguments wi_inte {F}.
Arguments wi_enth {F}. Arguments wi_dd_dP_T {F}. Arguments wi_dd_dT_P {F}.
Arguments wi_du_dP_T {F}. Arguments wi_du_dT_P {F}. Arguments wi_dV_dt {F}.
Arguments wi_Q_dot {F}.
Arguments mkHxIn {F}. Arguments hi_vol {F}. Arguments hi_dens {F}. Arguments hi_inte {F}.
Arguments hi_enth {F}. Arguments hi_dd_dP_T {F}. Arguments hi_du_dP_T {F}.
Arguments mkRegIn {F}. Arguments gi_vol {F}. Arguments gi_dens {F}. Arguments gi_inte {F}.
Arguments gi_enth_cold {F}. Arguments gi_enth_hot {F}. Arguments gi_dd_dP_T {F}.
Arguments gi_du_dP_T {F}.
Arguments mkInputs {F}. Arguments in_pres {F}. Arguments in_enth_norm {F}. Arguments in_comp {F}.
Arguments in_chx {F}. Arguments in_regen {F}. Arguments in_hhx {F}. Arguments in_exp {F}.

(** src/state_equations/flow_direction.rs:5-9 *)
Inductive Direction := Positive | Negative | Unknown.
(** src/state_equations/flow_direction.rs:48-53 *)
Record FlowDirection := mkFD { fd_ck : Direction; fd_kr : Direction; fd_rl : Direction; fd_le : Direction }.

(** [#[derive(PartialEq)]], src/state_equations/flow_direction.rs:4 and 47 *)
Definition Direction_eqb (a b : Direction) : bool :=
  match a, b with
  | Positive, Positive | Negative, Negative | Unknown, Unknown => true
  | _, _ => false
  end.
Definition FlowDirection_eqb (a b : FlowDirection) : bool :=
  Direction_eqb (fd_ck a) (fd_ck b) && Direction_eqb (fd_kr a) (fd_kr b) &&
  Direction_eqb (fd_rl a) (fd_rl b) && Direction_eqb (fd_le a) (fd_le b).

(** src/state_equations/flow_direction.rs:67-76 *)
Definition FlowDirection_default : FlowDirection :=
  {| fd_ck := Unknown; fd_kr := Unknown; fd_rl := Unknown; fd_le := Unknown |}.

(** ** [SVector<f64, 10>] and [SMatrix<f64, 10, 10>], src/state_equations/solver.rs:6-7

    nalgebra's statically sized types as ten-field records; the index type has
    exactly ten values, so no access can be out of bounds. *)
Inductive ix := I0 | I1 | I2 | I3 | I4 | I5 | I6 | I7 | I8 | I9.
Record vec10 (A : Type) := V10 {
  v0 : A; v1 : A; v2 : A; v3 : A; v4 : A; v5 : A; v6 : A; v7 : A; v8 : A; v9 : A }.
Arguments V10 {A}. Arguments v0 {A}. Arguments v1 {A}. Arguments v2 {A}. Arguments v3 {A}.
Arguments v4 {A}. Arguments v5 {A}. Arguments v6 {A}. Arguments v7 {A}. Arguments v8 {A}.
Arguments v9 {A}.
Definition vconst {A} (a : A) : vec10 A := V10 a a a a a a a a a a.
Definition vget {A} (v : vec10 A) (i : ix) : A :=
  match i with
  | I0 => v0 v | I1 => v1 v | I2 => v2 v | I3 => v3 v | I4 => v4 v
  | I5 => v5 v | I6 => v6 v | I7 => v7 v | I8 => v8 v | I9 => v9 v
  end.
Definition vset {A} (v : vec10 A) (i : ix) (x : A) : vec10 A :=
  match v, i with
  | V10 a b c d e f g h k l, I0 => V10 x b c d e f g h k l
  | V10 a b c d e f g h k l, I1 => V10 a x c d e f g h k l
  | V10 a b c d e f g h k l, I2 => V10 a b x d e f g h k l
  | V10 a b c d e f g h k l, I3 => V10 a b c x e f g h k l
  | V10 a b c d e f g h k l, I4 => V10 a b c d x f g h k l
  | V10 a b c d e f g h k l, I5 => V10 a b c d e x g h k l
  | V10 a b c d e f g h k l, I6 => V10 a b c d e f x h k l
  | V10 a b c d e f g h k l, I7 => V10 a b c d e f g x k l
  | V10 a b c d e f g h k l, I8 => V10 a b c d e f g h x l
  | V10 a b c d e f g h k l, I9 => V10 a b c d e f g h k x
  end.
Definition Vector F := vec10 F.
Definition Matrix F := vec10 (vec10 F).
(** [a[(r, c)] = x] *)
Definition mset {F} (a : Matrix F) (r c : ix) (x : F) : Matrix F :=
  vset a r (vset (vget a r) c x).

(** The trait [MatrixDecomposition], src/state_equations/solver.rs:199-240: an
    arbitrary function.  The bodies of the implementations (QR, LU, Cholesky,
    SVD) are nalgebra calls and not modelled; [None] is the error. *)
Definition Decomp F := Matrix F -> Vector F -> option (Vector F).

(** Errors of [solve]: the decomposition failed (context of
    src/state_equations/solver.rs:205-238), or [bail!] at line 31 *)
Inductive SolveError := LinearSolveFailed | FlowDirectionsNotFound.

(** src/state_equations/solver.rs:162-170 *)
Record MatrixStencil (F : Type) := mkStencil {
  st_a : Matrix F; st_h_comp_norm : F; st_h_chx_norm : F; st_h_regen_cold_norm : F;
  st_h_regen_hot_norm : F; st_h_hhx_norm : F; st_h_exp_norm : F }.
(** src/state_equations/solver.rs:40-43 *)
Record System (F : Type) := mkSystem { sys_stencil : MatrixStencil F; sys_b : Vector F }.
Arguments mkStencil {F}. Arguments st_a {F}. Arguments st_h_comp_norm {F}.
Arguments st_h_chx_norm {F}. Arguments st_h_regen_cold_norm {F}.
Arguments st_h_regen_hot_norm {F}. Arguments st_h_hhx_norm {F}. Arguments st_h_exp_norm {F}.
Arguments mkSystem {F}. Arguments sys_stencil {F}. Arguments sys_b {F}.

(** src/state_equations/solver.rs:10 *)
Definition ALLOWED_FLOW_UPDATES : nat := 3.

Section Solver.
  Context {F : Type} {ops : NumOps F}.

  (** src/state_equations/flow_direction.rs:15-21 *)
  Definition Direction_from_value (value : F) : Direction :=
    if n_le n0 value then Positive else Negative.

  (** src/state_equations/flow_direction.rs:26-32 *)
  Definition Direction_select (d : Direction) (positive negative : F) : F :=
    match d with
    | Positive => positive
    | Negative => negative
    | Unknown => nhalf * (positive + negative)
    end.

  (** src/state_equations/flow_direction.rs:57-64 *)
  Definition FlowDirection_from_solution (s : Solution F) : FlowDirection :=
    {| fd_ck := Direction_from_value (so_m_dot_ck s);
       fd_kr := Direction_from_value (so_m_dot_kr s);
       fd_rl := Direction_from_value (so_m_dot_rl s);
       fd_le := Direction_from_value (so_m_dot_le s) |}.

  (** src/state_equations/solver.rs:47-141 *)
  Definition System_new (i : Inputs F) : System F :=
    let pres := in_pres i in
    let enth_norm := in_enth_norm i in
    let comp := in_comp i in
    let chx := in_chx i in
    let regen := in_regen i in
    let hhx := in_hhx i in
    let exp := in_exp i in
    let a : Matrix F := vconst (vconst n0) in
    let b : Vector F := vconst n0 in
    (* Mass balance on compression space *)
    let a := mset a I0 I0 n1 in
    let a := mset a I0 I7 (wi_vol comp * wi_dd_dT_P comp) in
    let a := mset a I0 I9 (wi_vol comp * wi_dd_dP_T comp) in
    let b := vset b I0 (- wi_dens comp * wi_dV_dt comp) in
    (* Energy balance on compression space *)
    let a := mset a I1 I7
      (wi_vol comp * (wi_dens comp * wi_du_dT_P comp + wi_inte comp * wi_dd_dT_P comp)
         / enth_norm) in
    let a := mset a I1 I9
      (wi_vol comp * (wi_dens comp * wi_du_dP_T comp + wi_inte comp * wi_dd_dP_T comp)
         / enth_norm) in
    let b := vset b I1
      ((- (pres + wi_dens comp * wi_inte comp) * wi_dV_dt comp - wi_Q_dot comp) / enth_norm) in
    (* Mass balance on cold heat exchanger *)
    let a := mset a I2 I0 (- n1) in
    let a := mset a I2 I1 n1 in
    let a := mset a I2 I9 (hi_vol chx * hi_dd_dP_T chx) in
    (* Energy balance on cold heat exchanger *)
    let a := mset a I3 I4 (n1 / enth_norm) in
    let a := mset a I3 I9
      (hi_vol chx * (hi_dens chx * hi_du_dP_T chx + hi_inte chx * hi_dd_dP_T chx)
         / enth_norm) in
    (* Mass balance on regenerator *)
    let a := mset a I4 I1 (- n1) in
    let a := mset a I4 I2 n1 in
    let a := mset a I4 I9 (gi_vol regen * gi_dd_dP_T regen) in
    (* Energy balance on regenerator *)
    let a := mset a I5 I5 (n1 / enth_norm) in
    let a := mset a I5 I9
      (gi_vol regen * (gi_dens regen * gi_du_dP_T regen + gi_inte regen * gi_dd_dP_T regen)
         / enth_norm) in
    (* Mass balance on hot heat exchanger *)
    let a := mset a I6 I2 (- n1) in
    let a := mset a I6 I3 n1 in
    let a := mset a I6 I9 (hi_vol hhx * hi_dd_dP_T hhx) in
    (* Energy balance on hot heat exchanger *)
    let a := mset a I7 I6 (- n1 / enth_norm) in
    let a := mset a I7 I9
      (hi_vol hhx * (hi_dens hhx * hi_du_dP_T hhx + hi_inte hhx * hi_dd_dP_T hhx)
         / enth_norm) in
    (* Mass balance on expansion space *)
    let a := mset a I8 I3 (- n1) in
    let a := mset a I8 I8 (wi_vol exp * wi_dd_dT_P exp) in
    let a := mset a I8 I9 (wi_vol exp * wi_dd_dP_T exp) in
    let b := vset b I8 (- wi_dens exp * wi_dV_dt exp) in
    (* Energy balance on expansion space *)
    let a := mset a I9 I8
      (wi_vol exp * (wi_dens exp * wi_du_dT_P exp + wi_inte exp * wi_dd_dT_P exp)
         / enth_norm) in
    let a := mset a I9 I9
      (wi_vol exp * (wi_dens exp * wi_du_dP_T exp + wi_inte exp * wi_dd_dP_T exp)
         / enth_norm) in
    let b := vset b I9
      ((- (pres + wi_dens exp * wi_inte exp) * wi_dV_dt exp - wi_Q_dot exp) / enth_norm) in
    {| sys_stencil :=
         {| st_a := a;
            st_h_comp_norm := wi_enth comp / enth_norm;
            st_h_chx_norm := hi_enth chx / enth_norm;
            st_h_regen_cold_norm := gi_enth_cold regen / enth_norm;
            st_h_regen_hot_norm := gi_enth_hot regen / enth_norm;
            st_h_hhx_norm := hi_enth hhx / enth_norm;
            st_h_exp_norm := wi_enth exp / enth_norm |};
       sys_b := b |}.

  (** src/state_equations/solver.rs:174-196 *)
  Definition create_matrix (s : MatrixStencil F) (flow_dir : FlowDirection) : Matrix F :=
    let h_ck_norm := Direction_select (fd_ck flow_dir) (st_h_comp_norm s) (st_h_chx_norm s) in
    let h_kr_norm := Direction_select (fd_kr flow_dir) (st_h_chx_norm s) (st_h_regen_cold_norm s) in
    let h_rl_norm := Direction_select (fd_rl flow_dir) (st_h_regen_hot_norm s) (st_h_hhx_norm s) in
    let h_le_norm := Direction_select (fd_le flow_dir) (st_h_hhx_norm s) (st_h_exp_norm s) in
    let a := st_a s in
    let a := mset a I1 I0 h_ck_norm in
    let a := mset a I3 I0 (- h_ck_norm) in
    let a := mset a I3 I1 h_kr_norm in
    let a := mset a I5 I1 (- h_kr_norm) in
    let a := mset a I5 I2 h_rl_norm in
    let a := mset a I7 I2 (- h_rl_norm) in
    let a := mset a I7 I3 h_le_norm in
    let a := mset a I9 I3 (- h_le_norm) in
    a.

  (** src/state_equations/solver.rs:147-158 *)
  Definition Solution_of_vector (x : Vector F) : Solution F :=
    {| so_m_dot_ck := vget x I0; so_m_dot_kr := vget x I1; so_m_dot_rl := vget x I2;
       so_m_dot_le := vget x I3; so_Q_dot_k := vget x I4; so_Q_dot_r := vget x I5;
       so_Q_dot_l := vget x I6; so_dTc_dt := vget x I7; so_dTe_dt := vget x I8;
       so_dP_dt := vget x I9 |}.

  (** src/state_equations/solver.rs:144-159 *)
  Definition System_solve (T : Decomp F) (s : System F) (flow_dir : FlowDirection)
    : option (Solution F) :=
    let a := create_matrix (sys_stencil s) flow_dir in
    option_map Solution_of_vector (T a (sys_b s)).

  (** The loop of [solve], src/state_equations/solver.rs:23-31.
      Ghost output: the flow directions for which a linear solve was attempted,
      in order (first component); the code's result is the second component. *)
  Fixpoint solve_loop (T : Decomp F) (s : System F) (n : nat) (flow_dir : FlowDirection)
    : list FlowDirection * result (Solution F) SolveError :=
    match n with
    | O => ([], Err FlowDirectionsNotFound)
    | S n' =>
        match System_solve T s flow_dir with
        | None => ([flow_dir], Err LinearSolveFailed)
        | Some solution =>
            let actual_flow_dir := FlowDirection_from_solution solution in
            if FlowDirection_eqb flow_dir actual_flow_dir then ([flow_dir], Ok solution)
            else let (tr, r) := solve_loop T s n' actual_flow_dir in (flow_dir :: tr, r)
        end
    end.

  (** [solve] with the ghost list of attempted flow directions; the range
      [0..=ALLOWED_FLOW_UPDATES] has [ALLOWED_FLOW_UPDATES + 1] elements *)
  Definition solve_traced (T : Decomp F) (inputs : Inputs F) (hint : FlowDirection)
    : list FlowDirection * result (Solution F) SolveError :=
    solve_loop T (System_new inputs) (S ALLOWED_FLOW_UPDATES) hint.

  (** src/state_equations/solver.rs:17-32 *)
  Definition solve (T : Decomp F) (inputs : Inputs F) (hint : FlowDirection)
    : result (Solution F) SolveError :=
    snd (solve_traced T inputs hint).
End Solver.

(** ** The ODE integrator

    [ode_solvers::Dopri5] is external.  It is modelled by an arbitrary finite
    strategy: a program that asks for derivatives (each question may depend on
    all earlier answers) and ends with output points or an error.
    [Vector3] is a triple. *)
Definition vec3 (F : Type) := (F * F * F)%type.
Inductive ode_prog (F : Type) :=
| OAsk (t : F) (y : vec3 F) (k : vec3 F -> ode_prog F)
| ODone (x_out : list F) (y_out : list (vec3 F))
| OErr.
Arguments OAsk {F}. Arguments ODone {F}. Arguments OErr {F}.

(** Arguments of [Dopri5::new], src/state_equations/integrator.rs:35-43 *)
Record OdeArgs (F : Type) := mkOdeArgs {
  oa_x : F; oa_x_end : F; oa_dx : F; oa_y : vec3 F; oa_rtol : F; oa_atol : F }.
Arguments mkOdeArgs {F}. Arguments oa_x {F}. Arguments oa_x_end {F}. Arguments oa_dx {F}.
Arguments oa_y {F}. Arguments oa_rtol {F}. Arguments oa_atol {F}.

(** What surrounds the code: the integrator, and whether the build checks
    integer overflow ([debug] profile) or wraps ([release] profile) *)
Record Env (F : Type) := mkEnv { env_ode : OdeArgs F -> ode_prog F; env_overflow_checks : bool }.
Arguments mkEnv {F}. Arguments env_ode {F}. Arguments env_overflow_checks {F}.

(** The trait [Cycle], src/state_equations/cycle.rs:7-17 (required methods).
    Simplification: [calculate_inputs] is pure and total; it is for [Run], the
    only non-test implementation (the volume closure does not panic). *)
Record Cycle (F : Type) := mkCycle {
  cy_calculate_inputs : F -> Conditions F -> Inputs F;
  cy_period : F;
  cy_pres_zero : F }.
Arguments mkCycle {F}. Arguments cy_calculate_inputs {F}. Arguments cy_period {F}.
Arguments cy_pres_zero {F}.

(** src/state_equations/integrator.rs:110-113 *)
Record Point (F : Type) := mkPoint { pt_time : F; pt_conditions : Conditions F }.
Arguments mkPoint {F}. Arguments pt_time {F}. Arguments pt_conditions {F}.

(** src/state_equations/cycle.rs:67-75 *)
Record SteadyStateInputs (F : Type) := mkSSI {
  ssi_pres_zero : F; ssi_temp_comp_hint : F; ssi_temp_exp_hint : F; ssi_num_points : N;
  ssi_ode_tol : OdeTolerance F; ssi_conv_tol : ConvergenceTolerance F; ssi_max_iters : N }.
Arguments mkSSI {F}. Arguments ssi_pres_zero {F}. Arguments ssi_temp_comp_hint {F}.
Arguments ssi_temp_exp_hint {F}. Arguments ssi_num_points {F}. Arguments ssi_ode_tol {F}.
Arguments ssi_conv_tol {F}. Arguments ssi_max_iters {F}.

(** A question the integrator asked and the answer it got (ghost) *)
Record Query (F : Type) := mkQuery { q_time : F; q_y : vec3 F; q_dy : vec3 F }.
Arguments mkQuery {F}. Arguments q_time {F}. Arguments q_y {F}. Arguments q_dy {F}.

(** Errors of the inner loop: the ODE solver's error, or [bail!("did not
    converge")] (src/state_equations/cycle.rs:63) *)
Inductive CycleError := OdeFailed | DidNotConverge.

Section Integrator.
  Context {F : Type} {ops : NumOps F}.
  Variable E : Env F.
  Variable T : Decomp F.
  Variable cycle : Cycle F.

  (** [System::system], src/state_equations/integrator.rs:126-143: the
      derivative and the new [last_flow_dir] *)
  Definition system (last_flow_dir : FlowDirection) (time : F) (y : vec3 F)
    : outcome (vec3 F * FlowDirection) :=
    let '(y0, y1, y2) := y in
    let conditions := {| cd_P := y0; cd_T_c := y1; cd_T_e := y2 |} in
    let inputs := cy_calculate_inputs cycle time conditions in
    match solve T inputs last_flow_dir with
    | Err _ => Panic PSolveFailed
    | Ok solution =>
        let flow_dir := FlowDirection_from_solution solution in
        Ret ((so_dP_dt solution, so_dTc_dt solution, so_dTe_dt solution), flow_dir)
    end.

  (** [stepper.integrate()], src/state_equations/integrator.rs:44: run the
      strategy against [system], threading the remembered flow direction.
      Ghost output: the list of questions and answers. *)
  Fixpoint exec_ode (p : ode_prog F) (last_flow_dir : FlowDirection)
    : list (Query F) * outcome (result (list F * list (vec3 F)) CycleError) :=
    match p with
    | OErr => ([], Ret (Err OdeFailed))
    | ODone x_out y_out => ([], Ret (Ok (x_out, y_out)))
    | OAsk t y k =>
        match system last_flow_dir t y with
        | Panic r => ([], Panic r)
        | Ret (dy, flow_dir) =>
            let (qs, r) := exec_ode (k dy) flow_dir in (mkQuery t y dy :: qs, r)
        end
    end.

  (** [num_points - 1] on [u32], src/state_equations/integrator.rs:29 *)
  Definition u32_pred (n : N) : outcome N :=
    match n with
    | 0%N => if env_overflow_checks E then Panic POverflow else Ret 4294967295%N
    | _ => Ret (N.pred n)
    end.

  (** The arguments given to the stepper, src/state_equations/integrator.rs:28-43 *)
  Definition ode_args (ic : Conditions F) (intervals : N) (tol : OdeTolerance F) : OdeArgs F :=
    let period := cy_period cycle in
    {| oa_x := n0;
       oa_x_end := period + n_lit 1 (-14);
       oa_dx := period / n_of_u32 intervals;
       oa_y := (cd_P ic, cd_T_c ic, cd_T_e ic);
       oa_rtol := ot_rel tol;
       oa_atol := ot_abs tol |}.

  (** src/state_equations/integrator.rs:46-54 *)
  Definition points_of (x_out : list F) (y_out : list (vec3 F)) : list (Point F) :=
    map (fun '(time, (p, tc, te)) =>
           {| pt_time := time; pt_conditions := {| cd_P := p; cd_T_c := tc; cd_T_e := te |} |})
        (combine x_out y_out).

  (** [Integration::try_from], src/state_equations/integrator.rs:18-57, with the
      ghost list of derivative evaluations.  [Vec::with_capacity] (line 46) only
      affects memory and is not modelled. *)
  Definition try_from_traced (ic : Conditions F) (num_points : N) (tol : OdeTolerance F)
    : list (Query F) * outcome (result (list (Point F)) CycleError) :=
    match u32_pred num_points with
    | Panic r => ([], Panic r)
    | Ret intervals =>
        let (qs, r) := exec_ode (env_ode E (ode_args ic intervals tol)) FlowDirection_default in
        (qs, let! r := r in
             match r with
             | Err e => Ret (Err e)
             | Ok (x_out, y_out) => Ret (Ok (points_of x_out y_out))
             end)
    end.
  Definition try_from (ic : Conditions F) (num_points : N) (tol : OdeTolerance F)
    : outcome (result (list (Point F)) CycleError) :=
    snd (try_from_traced ic num_points tol).

  (** [.first().unwrap()] and [.last().unwrap()] *)
  Definition first_unwrap {A} (l : list A) : outcome A :=
    match l with [] => Panic PEmpty | a :: _ => Ret a end.
  Fixpoint last_unwrap {A} (l : list A) : outcome A :=
    match l with [] => Panic PEmpty | [a] => Ret a | _ :: l' => last_unwrap l' end.

  (** [Integration::is_converged], src/state_equations/integrator.rs:66-71 *)
  Definition integration_is_converged (points : list (Point F)) (tol : ConvergenceTolerance F)
    : outcome bool :=
    let! first_point := first_unwrap points in
    let! last_point := last_unwrap points in
    Ret (andb (is_converged tol (cd_T_c (pt_conditions first_point))
                                (cd_T_c (pt_conditions last_point)))
              (is_converged tol (cd_T_e (pt_conditions first_point))
                                (cd_T_e (pt_conditions last_point)))).

  (** [Integration::final_conditions], src/state_equations/integrator.rs:81-84 *)
  Definition final_conditions (points : list (Point F)) : outcome (Conditions F) :=
    let! last_point := last_unwrap points in Ret (pt_conditions last_point).

  (** [Integration::into_state_values], src/state_equations/integrator.rs:89-106 *)
  Fixpoint into_state_values_from (flow_dir : FlowDirection) (points : list (Point F))
    : outcome (list (SeValues F)) :=
    match points with
    | [] => Ret []
    | point :: points' =>
        let time := pt_time point in
        let conditions := pt_conditions point in
        let inputs := cy_calculate_inputs cycle time conditions in
        match solve T inputs flow_dir with
        | Err _ => Panic PSolveFailed
        | Ok solution =>
            let flow_dir := FlowDirection_from_solution solution in
            let! rest := into_state_values_from flow_dir points' in
            Ret ({| sv_time := time; sv_conditions := conditions; sv_solution := solution |}
                   :: rest)
        end
    end.
  Definition into_state_values (points : list (Point F)) : outcome (list (SeValues F)) :=
    into_state_values_from FlowDirection_default points.

  (** The loop of [find_steady_state], src/state_equations/cycle.rs:51-63.
      Ghost output: the number of integrations ([Integration::try_from] calls). *)
  Fixpoint find_steady_state_loop (inputs : SteadyStateInputs F) (n : nat) (ic : Conditions F)
    : nat * outcome (result (list (SeValues F)) CycleError) :=
    match n with
    | O => (0, Ret (Err DidNotConverge))
    | S n' =>
        match try_from ic 2%N (ssi_ode_tol inputs) with
        | Panic r => (1, Panic r)
        | Ret (Err e) => (1, Ret (Err e))
        | Ret (Ok integration) =>
            match integration_is_converged integration (ssi_conv_tol inputs) with
            | Panic r => (1, Panic r)
            | Ret true =>
                (2, let! r := try_from ic (ssi_num_points inputs) (ssi_ode_tol inputs) in
                    match r with
                    | Err e => Ret (Err e)
                    | Ok integration =>
                        let! values := into_state_values integration in Ret (Ok values)
                    end)
            | Ret false =>
                match final_conditions integration with
                | Panic r => (1, Panic r)
                | Ret final =>
                    let ic := {| cd_P := ssi_pres_zero inputs;
                                 cd_T_c := cd_T_c final; cd_T_e := cd_T_e final |} in
                    let (k, r) := find_steady_state_loop inputs n' ic in (S k, r)
                end
            end
        end
    end.

  (** [Cycle::find_steady_state], src/state_equations/cycle.rs:33-64 *)
  Definition find_steady_state_counted (inputs : SteadyStateInputs F)
    : nat * outcome (result (list (SeValues F)) CycleError) :=
    let ic := {| cd_P := ssi_pres_zero inputs; cd_T_c := ssi_temp_comp_hint inputs;
                 cd_T_e := ssi_temp_exp_hint inputs |} in
    find_steady_state_loop inputs (N.to_nat (ssi_max_iters inputs)) ic.
  Definition find_steady_state (inputs : SteadyStateInputs F)
    : outcome (result (list (SeValues F)) CycleError) :=
    snd (find_steady_state_counted inputs).
End Integrator.
