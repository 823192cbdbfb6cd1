(** * Specifications, for any number type

    What the properties talk about, written without using the functions of the
    model that are under scrutiny: only its data types, the operations of the
    number type, and the external oracles (matrix decomposition, integrator,
    components, fluid) appear here. *)
From Coq Require Import ZArith NArith List.
From Verif Require Import Num ModelTypes ModelWs ModelHx ModelStateEq ModelEngine ModelApi.
Import ListNotations.
Local Open Scope num_scope.

(** [n] steps of a relation *)
Inductive steps {A : Type} (R : A -> A -> Prop) : nat -> A -> A -> Prop :=
| steps_O a : steps R 0 a a
| steps_S n a b c : R a b -> steps R n b c -> steps R (S n) a c.

Section Spec.
  Context {F : Type} {ops : NumOps F}.

  (** ** Convergence *)

  (** [new] is within tolerance of [old]: the change, and the change relative
      to the old value, are both strictly below their tolerance *)
  Definition close (tol : ConvergenceTolerance F) (old new : F) : Prop :=
    n_lt (n_abs (new - old)) (ct_abs tol) = true /\
    n_lt (n_abs ((new - old) / old)) (ct_rel tol) = true.

  (** ** State equations *)

  (** The ten equations as explicit rows; unknowns in the order m_ck, m_kr,
      m_rl, m_le, Q_k, Q_r, Q_l, dT_c/dt, dT_e/dt, dP/dt.  The four interface
      enthalpies (already divided by the norm) are arguments. *)
  Definition state_matrix (i : Inputs F) (h_ck h_kr h_rl h_le : F) : Matrix F :=
    let c := in_comp i in let k := in_chx i in let r := in_regen i in
    let l := in_hhx i in let e := in_exp i in let hn := in_enth_norm i in
    let o := n0 in
    V10
      (V10 n1 o o o o o o (wi_vol c * wi_dd_dT_P c) o (wi_vol c * wi_dd_dP_T c))
      (V10 h_ck o o o o o o
         (wi_vol c * (wi_dens c * wi_du_dT_P c + wi_inte c * wi_dd_dT_P c) / hn) o
         (wi_vol c * (wi_dens c * wi_du_dP_T c + wi_inte c * wi_dd_dP_T c) / hn))
      (V10 (- n1) n1 o o o o o o o (hi_vol k * hi_dd_dP_T k))
      (V10 (- h_ck) h_kr o o (n1 / hn) o o o o
         (hi_vol k * (hi_dens k * hi_du_dP_T k + hi_inte k * hi_dd_dP_T k) / hn))
      (V10 o (- n1) n1 o o o o o o (gi_vol r * gi_dd_dP_T r))
      (V10 o (- h_kr) h_rl o o (n1 / hn) o o o
         (gi_vol r * (gi_dens r * gi_du_dP_T r + gi_inte r * gi_dd_dP_T r) / hn))
      (V10 o o (- n1) n1 o o o o o (hi_vol l * hi_dd_dP_T l))
      (V10 o o (- h_rl) h_le o o (- n1 / hn) o o
         (hi_vol l * (hi_dens l * hi_du_dP_T l + hi_inte l * hi_dd_dP_T l) / hn))
      (V10 o o o (- n1) o o o o (wi_vol e * wi_dd_dT_P e) (wi_vol e * wi_dd_dP_T e))
      (V10 o o o (- h_le) o o o o
         (wi_vol e * (wi_dens e * wi_du_dT_P e + wi_inte e * wi_dd_dT_P e) / hn)
         (wi_vol e * (wi_dens e * wi_du_dP_T e + wi_inte e * wi_dd_dP_T e) / hn)).

  Definition state_rhs (i : Inputs F) : Vector F :=
    let c := in_comp i in let e := in_exp i in let hn := in_enth_norm i in
    let o := n0 in
    V10 (- wi_dens c * wi_dV_dt c)
        ((- (in_pres i + wi_dens c * wi_inte c) * wi_dV_dt c - wi_Q_dot c) / hn)
        o o o o o o
        (- wi_dens e * wi_dV_dt e)
        ((- (in_pres i + wi_dens e * wi_inte e) * wi_dV_dt e - wi_Q_dot e) / hn).

  (** Donor-cell value for a flow [m]: [cold] is the value on the cold side
      (where positive flow comes from), [hot] the value on the hot side *)
  Definition donor (m cold hot : F) : F := if n_le n0 m then cold else hot.

  (** The value used for a direction; averaged if the direction is unknown *)
  Definition by_direction (d : Direction) (cold hot : F) : F :=
    match d with
    | Positive => cold
    | Negative => hot
    | Unknown => nhalf * (cold + hot)
    end.

  Definition named (x : Vector F) : Solution F :=
    mkSolution (v0 x) (v1 x) (v2 x) (v3 x) (v4 x) (v5 x) (v6 x) (v7 x) (v8 x) (v9 x).

  (** [s] is what the decomposition [T] returns for the state equations with
      the interface enthalpies of the flow directions [d] *)
  Definition solves_for (T : Decomp F) (i : Inputs F) (d : FlowDirection) (s : Solution F) : Prop :=
    let hn := in_enth_norm i in
    exists x,
      T (state_matrix i
           (by_direction (fd_ck d) (wi_enth (in_comp i) / hn) (hi_enth (in_chx i) / hn))
           (by_direction (fd_kr d) (hi_enth (in_chx i) / hn) (gi_enth_cold (in_regen i) / hn))
           (by_direction (fd_rl d) (gi_enth_hot (in_regen i) / hn) (hi_enth (in_hhx i) / hn))
           (by_direction (fd_le d) (hi_enth (in_hhx i) / hn) (wi_enth (in_exp i) / hn)))
        (state_rhs i) = Some x
      /\ s = named x.

  Definition fails_for (T : Decomp F) (i : Inputs F) (d : FlowDirection) : Prop :=
    let hn := in_enth_norm i in
    T (state_matrix i
         (by_direction (fd_ck d) (wi_enth (in_comp i) / hn) (hi_enth (in_chx i) / hn))
         (by_direction (fd_kr d) (hi_enth (in_chx i) / hn) (gi_enth_cold (in_regen i) / hn))
         (by_direction (fd_rl d) (gi_enth_hot (in_regen i) / hn) (hi_enth (in_hhx i) / hn))
         (by_direction (fd_le d) (hi_enth (in_hhx i) / hn) (wi_enth (in_exp i) / hn)))
      (state_rhs i) = None.

  (** [s] solves the state equations whose interface enthalpies are the donor
      values of [s]'s own mass flows *)
  Definition upwind_solution (T : Decomp F) (i : Inputs F) (s : Solution F) : Prop :=
    let hn := in_enth_norm i in
    exists x,
      T (state_matrix i
           (donor (so_m_dot_ck s) (wi_enth (in_comp i) / hn) (hi_enth (in_chx i) / hn))
           (donor (so_m_dot_kr s) (hi_enth (in_chx i) / hn) (gi_enth_cold (in_regen i) / hn))
           (donor (so_m_dot_rl s) (gi_enth_hot (in_regen i) / hn) (hi_enth (in_hhx i) / hn))
           (donor (so_m_dot_le s) (hi_enth (in_hhx i) / hn) (wi_enth (in_exp i) / hn)))
        (state_rhs i) = Some x
      /\ s = named x.

  (** the flow directions of a solution: non-negative is positive, everything
      else (negative, or not a number) is negative *)
  Definition sign_of (m : F) : Direction := if n_le n0 m then Positive else Negative.
  Definition signs (s : Solution F) : FlowDirection :=
    mkFD (sign_of (so_m_dot_ck s)) (sign_of (so_m_dot_kr s))
         (sign_of (so_m_dot_rl s)) (sign_of (so_m_dot_le s)).

  (** The search for flow directions that starts at [hint] comes to nothing: up
      to four trials, each with the directions of the previous solution, the
      last of which has no solution or is the fourth and still inconsistent *)
  Definition search_fails (T : Decomp F) (i : Inputs F) (hint : FlowDirection) : Prop :=
    exists tr pre a,
      (exists tr', tr = hint :: tr') /\ tr = pre ++ [a] /\ (length tr <= 4)%nat /\
      (forall j a b, nth_error tr j = Some a -> nth_error tr (S j) = Some b ->
         exists s, solves_for T i a s /\ b = signs s /\ a <> b) /\
      (fails_for T i a \/ (length tr = 4%nat /\ exists s, solves_for T i a s /\ a <> signs s)).

  (** ** Integration *)

  (** [dy] is the derivative of (P, T_c, T_e) at time [t] and conditions [y] *)
  Definition derivative_at (T : Decomp F) (c : Cycle F) (t : F) (y dy : vec3 F) : Prop :=
    exists s,
      upwind_solution T
        (cy_calculate_inputs c t (mkCond (fst (fst y)) (snd (fst y)) (snd y))) s
      /\ dy = (so_dP_dt s, so_dTc_dt s, so_dTe_dt s).

  (** The integrator's strategy [p], each of whose questions is answered with a
      derivative of the cycle, ends with the output [out] *)
  Inductive answered (T : Decomp F) (c : Cycle F) : ode_prog F -> list F * list (vec3 F) -> Prop :=
  | answered_done xs ys : answered T c (ODone xs ys) (xs, ys)
  | answered_ask t y k dy out :
      derivative_at T c t y dy -> answered T c (k dy) out -> answered T c (OAsk t y k) out.

  Definition point_of (x : F) (y : vec3 F) : Point F :=
    mkPoint x (mkCond (fst (fst y)) (snd (fst y)) (snd y)).

  (** [pts] are the output points with times [xs] and conditions [ys] *)
  Definition points_are (xs : list F) (ys : list (vec3 F)) (pts : list (Point F)) : Prop :=
    length pts = Nat.min (length xs) (length ys) /\
    forall j p, nth_error pts j = Some p ->
      exists x y, nth_error xs j = Some x /\ nth_error ys j = Some y /\ p = point_of x y.

  (** [pts] is an integration of cycle [c] over one period from [ic], output
      step [period / intervals] *)
  Definition integrates (E : Env F) (T : Decomp F) (c : Cycle F) (ic : Conditions F)
      (intervals : N) (tol : OdeTolerance F) (pts : list (Point F)) : Prop :=
    exists xs ys,
      answered T c
        (env_ode E
           (mkOdeArgs n0 (cy_period c + n_lit 1 (-14)) (cy_period c / n_of_u32 intervals)
              (cd_P ic, cd_T_c ic, cd_T_e ic) (ot_rel tol) (ot_abs tol)))
        (xs, ys)
      /\ points_are xs ys pts.

  (** number of intervals requested for [n] output points ([u32] arithmetic:
      with overflow checks there is none for [n = 0]) *)
  Definition intervals_for (E : Env F) (n intervals : N) : Prop :=
    (n <> 0 /\ intervals = n - 1)%N \/
    (n = 0 /\ env_overflow_checks E = false /\ intervals = 2 ^ 32 - 1)%N.

  (** one upwind-consistent state value per point *)
  Definition values_of_points (T : Decomp F) (c : Cycle F) (pts : list (Point F))
      (vs : list (SeValues F)) : Prop :=
    Forall2 (fun p v => sv_time v = pt_time p /\ sv_conditions v = pt_conditions p /\
               upwind_solution T (cy_calculate_inputs c (pt_time p) (pt_conditions p))
                 (sv_solution v)) pts vs.

  (** ** The cycle of an engine *)

  Definition gas_in_space (fl : Fluid F) (T P : F) (vol : Volume F) (Q : F) : WorkingSpaceIn F :=
    mkWsIn (v_value vol) (fl_dens fl T P) (fl_inte fl T P) (fl_enth fl T P) (fl_dd_dP_T fl T P)
      (fl_dd_dT_P fl T P) (fl_du_dP_T fl T P) (fl_du_dT_P fl T P) (v_deriv vol) Q.
  Definition gas_in_hx (fl : Fluid F) (T P V : F) : HeatExchangerIn F :=
    mkHxIn V (fl_dens fl T P) (fl_inte fl T P) (fl_enth fl T P) (fl_dd_dP_T fl T P)
      (fl_du_dP_T fl T P).
  Definition gas_in_regen (fl : Fluid F) (T : RegenTemp F) (P V : F) : RegeneratorIn F :=
    mkRegIn V (fl_dens fl (rt_avg T) P) (fl_inte fl (rt_avg T) P) (fl_enth fl (rt_cold T) P)
      (fl_enth fl (rt_hot T) P) (fl_dd_dP_T fl (rt_avg T) P) (fl_du_dP_T fl (rt_avg T) P).

  (** [c] is the cycle of an engine with these components, this fluid, this
      pressure and these temperatures *)
  Definition is_cycle_of (comps : Components F) (fl : Fluid F) (pres : Pressure F)
      (T : Temperatures F) (c : Cycle F) : Prop :=
    exists vols freq par V_k V_r V_l,
      ws_volumes (co_ws comps) (mkWsState pres) = Ret vols /\
      ws_frequency (co_ws comps) (mkWsState pres) = Ret freq /\
      ws_parasitics (co_ws comps) (mkWsState pres) = Ret par /\
      ex_volume (co_chx comps) = Ret V_k /\
      ex_volume (co_regen comps) = Ret V_r /\
      ex_volume (co_hhx comps) = Ret V_l /\
      cy_period c = n1 / freq /\
      cy_pres_zero c = pr_t_zero pres /\
      forall t cond,
        cy_calculate_inputs c t cond =
        mkInputs (cd_P cond)
          (nhalf * (fl_enth fl (te_sink T) (pr_avg pres) + fl_enth fl (te_source T) (pr_avg pres)))
          (gas_in_space fl (cd_T_c cond) (cd_P cond) (fst (vols t)) (pp_thermal (par_comp par)))
          (gas_in_hx fl (te_chx T) (cd_P cond) V_k)
          (gas_in_regen fl (te_regen T) (cd_P cond) V_r)
          (gas_in_hx fl (te_hhx T) (cd_P cond) V_l)
          (gas_in_space fl (cd_T_e cond) (cd_P cond) (snd (vols t)) (pp_thermal (par_exp par))).

  (** ** Averages over a cycle *)

  (** trapezoidal rule, accumulated from the left *)
  Fixpoint trapz_from (acc : F) (t y : list F) : F :=
    match t, y with
    | t0 :: ((t1 :: _) as t'), y0 :: ((y1 :: _) as y') =>
        trapz_from (acc + (y1 + y0) * (t1 - t0) * nhalf) t' y'
    | _, _ => acc
    end.
  Definition trapz (t y : list F) : F := trapz_from n0 t y.

  (** [a] is the time average of the samples [y] at times [t] *)
  Definition time_average (t y : list F) (a : F) : Prop :=
    exists t' t_final, t = t' ++ [t_final] /\ a = trapz t y / t_final.

  (** half the magnitude of the sum of two flows, sample by sample *)
  Fixpoint mean_magnitudes (l r : list F) : list F :=
    match l, r with
    | a :: l', b :: r' => nhalf * n_abs (a + b) :: mean_magnitudes l' r'
    | _, _ => []
    end.

  Definition mass_flow_averages (v : Values F) (m : MassFlows F) : Prop :=
    time_average (vs_time v) (mean_magnitudes (vs_m_dot_ck v) (vs_m_dot_kr v)) (mf_chx m) /\
    time_average (vs_time v) (mean_magnitudes (vs_m_dot_kr v) (vs_m_dot_rl v)) (mf_regen m) /\
    time_average (vs_time v) (mean_magnitudes (vs_m_dot_rl v) (vs_m_dot_le v)) (mf_hhx m).

  (** wall heat flow, zero for an infinite resistance *)
  Definition wall_average (R : F) (t q : list F) (a : F) : Prop :=
    (n_is_inf R = true -> a = n0) /\ (n_is_inf R = false -> time_average t q a).

  Definition heat_flow_averages (v : Values F) (T_chx T_hhx : F) (R : ThermalResistance F)
      (q : HeatFlows F) : Prop :=
    exists q_c q_k q_e q_l,
      wall_average (tr_comp R) (vs_time v) (map (fun T => (T - T_chx) / tr_comp R) (vs_T_c v)) q_c /\
      wall_average (tr_exp R) (vs_time v) (map (fun T => (T_hhx - T) / tr_exp R) (vs_T_e v)) q_e /\
      time_average (vs_time v) (vs_Q_dot_k v) q_k /\
      time_average (vs_time v) (vs_Q_dot_l v) q_l /\
      time_average (vs_time v) (vs_Q_dot_r v) (hf_regen q) /\
      hf_chx q = q_c + q_k /\
      hf_hhx q = q_e + q_l.

  (** ** The outer loop *)

  Definition hx_state (fl : Fluid F) (T P m Q : F) : HeatExchanger F :=
    mkHxr T P (fl_dens fl T P) (fl_cp fl T P) m Q.

  (** Temperatures that follow from three approach temperatures *)
  Definition temperatures_follow (sink source a_k a_r a_l imbalance : F) (T : Temperatures F) : Prop :=
    let cold := if n_le n0 imbalance then a_r else a_r - imbalance in
    let hot := if n_le n0 imbalance then a_r + imbalance else a_r in
    te_sink T = sink /\ te_source T = source /\
    te_chx T = sink + a_k /\ te_hhx T = source - a_l /\
    rt_cold (te_regen T) = te_chx T + cold /\
    rt_hot (te_regen T) = te_hhx T - hot /\
    rt_avg (te_regen T) =
      (te_hhx T - nhalf * hot - te_chx T - nhalf * cold)
      / n_ln ((te_hhx T - nhalf * hot) / (te_chx T + nhalf * cold)).

  (** [T'] are the temperatures obtained by recomputing the approach of each
      exchanger from the averages of [v] at the temperatures [T].  [pres] is the
      pressure the working spaces see; [P], [m], [q] are the averages of [v]. *)
  Definition recomputed (comps : Components F) (fl : Fluid F) (pres : Pressure F)
      (T : Temperatures F) (imbalance : F) (v : Values F)
      (P : F) (m : MassFlows F) (q : HeatFlows F) (T' : Temperatures F) : Prop :=
    exists R a_k a_r a_l,
      time_average (vs_time v) (vs_P v) P /\
      mass_flow_averages v m /\
      ws_thermal_resistance (co_ws comps) (mkWsState pres) = Ret R /\
      heat_flow_averages v (te_chx T) (te_hhx T) R q /\
      ex_approach (co_chx comps)
        (mkChxState (hx_state fl (te_chx T) P (mf_chx m) (hf_chx q)) (te_sink T)) = Ret a_k /\
      ex_approach (co_regen comps)
        (mkRegenState (hx_state fl (rt_avg (te_regen T)) P (mf_regen m) (hf_regen q))
           (te_chx T) (te_hhx T)) = Ret a_r /\
      ex_approach (co_hhx comps)
        (mkHhxState (hx_state fl (te_hhx T) P (mf_hhx m) (hf_hhx q)) (te_source T)) = Ret a_l /\
      temperatures_follow (te_sink T) (te_source T) a_k a_r a_l imbalance T'.

  Definition temperatures_close (tol : ConvergenceTolerance F) (T T' : Temperatures F) : Prop :=
    close tol (te_chx T) (te_chx T') /\
    close tol (te_hhx T) (te_hhx T') /\
    close tol (rt_cold (te_regen T)) (rt_cold (te_regen T')) /\
    close tol (rt_avg (te_regen T)) (rt_avg (te_regen T')) /\
    close tol (rt_hot (te_regen T)) (rt_hot (te_regen T')).

  (** The series of an engine are those of a list of state values *)
  Definition series_of (vs : list (SeValues F)) (v : Values F) : Prop :=
    Forall2 (fun x y => y = sv_time x) vs (vs_time v) /\
    Forall2 (fun x y => y = cd_P (sv_conditions x)) vs (vs_P v) /\
    Forall2 (fun x y => y = cd_T_c (sv_conditions x)) vs (vs_T_c v) /\
    Forall2 (fun x y => y = cd_T_e (sv_conditions x)) vs (vs_T_e v) /\
    Forall2 (fun x y => y = so_m_dot_ck (sv_solution x)) vs (vs_m_dot_ck v) /\
    Forall2 (fun x y => y = so_m_dot_kr (sv_solution x)) vs (vs_m_dot_kr v) /\
    Forall2 (fun x y => y = so_m_dot_rl (sv_solution x)) vs (vs_m_dot_rl v) /\
    Forall2 (fun x y => y = so_m_dot_le (sv_solution x)) vs (vs_m_dot_le v) /\
    Forall2 (fun x y => y = so_Q_dot_k (sv_solution x)) vs (vs_Q_dot_k v) /\
    Forall2 (fun x y => y = so_Q_dot_r (sv_solution x)) vs (vs_Q_dot_r v) /\
    Forall2 (fun x y => y = so_Q_dot_l (sv_solution x)) vs (vs_Q_dot_l v).

  (** ** Integrators that report where they start *)

  (** every way the strategy can end, whatever it is told, reports [y0] first *)
  Fixpoint first_output_is (y0 : vec3 F) (p : ode_prog F) : Prop :=
    match p with
    | ODone xs ys => (exists x xs', xs = x :: xs') /\ exists ys', ys = y0 :: ys'
    | OErr => True
    | OAsk _ _ k => forall dy, first_output_is y0 (k dy)
    end.
  Definition reports_start (E : Env F) : Prop :=
    forall a, first_output_is (oa_y a) (env_ode E a).

  (** A dialogue between the integrator's strategy and the derivative: the
      recorded questions are those of the strategy, each answered with a
      derivative of the cycle.  It stops with a panic only at a question for
      which the search for flow directions fails. *)
  Inductive dialogue (T : Decomp F) (c : Cycle F) : ode_prog F -> list (Query F) ->
      outcome (result (list F * list (vec3 F)) CycleError) -> Prop :=
  | dialogue_done xs ys : dialogue T c (ODone xs ys) [] (Ret (Ok (xs, ys)))
  | dialogue_err : dialogue T c OErr [] (Ret (Err OdeFailed))
  | dialogue_panic t y k hint :
      search_fails T (cy_calculate_inputs c t (mkCond (fst (fst y)) (snd (fst y)) (snd y))) hint ->
      dialogue T c (OAsk t y k) [] (Panic PSolveFailed)
  | dialogue_ask t y k dy qs r :
      derivative_at T c t y dy -> dialogue T c (k dy) qs r ->
      dialogue T c (OAsk t y k) (mkQuery t y dy :: qs) r.

  (** The hint the next point is solved with *)
  Definition last_signs (hint : FlowDirection) (vs : list (SeValues F)) : FlowDirection :=
    fold_left (fun _ v => signs (sv_solution v)) vs hint.

  (** an exchanger whose approach is the same in every state, the initial one included *)
  Definition fixed_approach {S} (x : Exchanger F S) : Prop :=
    forall s, ex_approach x s = ex_initial_approach x.

End Spec.
