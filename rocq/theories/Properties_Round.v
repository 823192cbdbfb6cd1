(** * C81-C84: what survives rounding *)
From Coq Require Import ZArith NArith List Reals.
From Flocq Require Import Core BinarySingleNaN.
From Verif Require Import Num ModelTypes ModelWs ModelHx ModelStateEq ModelEngine ModelApi B64
  Fixture Demo Witness SpecF64 SpecSeries SpecRound F64Err F64Avg F64Mean F64Order.
Import ListNotations.
Local Open Scope R_scope.

(** C81: rounding error of integrals and averages *)
Theorem C81_integral (lm : Libm) (nt : bool) (x y : list b64) :
  let ops := b64_ops lm nt in
  finite (integrate x y) ->
  let pts := points x y in let n := panels pts in
  Rabs (value (integrate x y) - trapezoid pts)
    <= growth (n + 4) * magnitude pts + 2 * INR n * tiny * (1 + unit_roundoff) ^ n.
Proof. exact (integrate_err lm nt x y). Qed.
Print Assumptions C81_integral.
Theorem C81_pressure (lm : Libm) (nt : bool) (v : Values b64) (p : Pressure b64) (t : b64) :
  let ops := b64_ops lm nt in
  Pressure_from_values v = Ret p -> last_unwrap (vs_time v) = Ret t -> 0 < value t ->
  finite (pr_avg p) -> accurate (pr_avg p) (vs_time v) (vs_P v) t.
Proof. exact (pressure_accurate lm nt v p t). Qed.
Print Assumptions C81_pressure.
Theorem C81_regenerator_heat (lm : Libm) (nt : bool) (v : Values b64) (Tk Th : b64)
    (res : ThermalResistance b64) (h : HeatFlows b64) (t : b64) :
  let ops := b64_ops lm nt in
  HeatFlows_from_values v Tk Th res = Ret h -> last_unwrap (vs_time v) = Ret t -> 0 < value t ->
  finite (hf_regen h) -> accurate (hf_regen h) (vs_time v) (vs_Q_dot_r v) t.
Proof. exact (regen_heat_accurate lm nt v Tk Th res h t). Qed.
Print Assumptions C81_regenerator_heat.
Theorem C81_mass_flows (lm : Libm) (nt : bool) (v : Values b64) (mf : MassFlows b64) (t : b64) :
  let ops := b64_ops lm nt in
  MassFlows_from_values v = Ret mf -> last_unwrap (vs_time v) = Ret t ->
  grid_to (map value (vs_time v)) (value t) ->
  finite (mf_chx mf) -> finite (mf_regen mf) -> finite (mf_hhx mf) ->
  let V l := map value (l v) in
  let exact l r := average (V (@vs_time b64)) (interface_mean (V l) (V r)) (value t) in
  let n l r := panels (combine (vs_time v) (combine (l v) (r v))) in
  let ck := @vs_m_dot_ck b64 in let kr := @vs_m_dot_kr b64 in
  let rl := @vs_m_dot_rl b64 in let le := @vs_m_dot_le b64 in
  relatively_accurate 2 (n ck kr) (value (mf_chx mf)) (value t) (exact ck kr) /\
  relatively_accurate 2 (n kr rl) (value (mf_regen mf)) (value t) (exact kr rl) /\
  relatively_accurate 2 (n rl le) (value (mf_hhx mf)) (value t) (exact rl le).
Proof. exact (mass_flows_accurate lm nt v mf t). Qed.
Print Assumptions C81_mass_flows.
Theorem C81_relative (lm : Libm) (nt : bool) (v : Values b64) (p : Pressure b64) (t : b64) :
  let ops := b64_ops lm nt in
  Pressure_from_values v = Ret p -> last_unwrap (vs_time v) = Ret t ->
  grid_to (map value (vs_time v)) (value t) ->
  Forall (fun a => 0 <= a) (map value (vs_P v)) -> finite (pr_avg p) ->
  relatively_accurate 0 (panels (combine (vs_time v) (vs_P v))) (value (pr_avg p)) (value t)
    (average (map value (vs_time v)) (map value (vs_P v)) (value t)).
Proof. exact (pressure_relative lm nt v p t). Qed.
Print Assumptions C81_relative.
(** the figures: up to a thousand panels and a period of at least a microsecond *)
Theorem C81_figures (k n : nat) (got t exact : R) :
  (k <= 2)%nat -> (n <= 1000)%nat -> / 10 ^ 6 <= t -> 0 <= exact ->
  relatively_accurate k n got t exact -> Rabs (got - exact) <= 12 / 10 ^ 14 * exact + / 10 ^ 300.
Proof. exact (relative_figures k n got t exact). Qed.
Print Assumptions C81_figures.
Theorem C81_growth (n : nat) : INR n * unit_roundoff <= 1 ->
  growth n <= INR n * unit_roundoff * (1 + INR n * unit_roundoff).
Proof. exact (growth_small n). Qed.
Print Assumptions C81_growth.
Theorem C81_non_negative (lm : Libm) (nt : bool) (v : Values b64) (mf : MassFlows b64) (t : b64) :
  let ops := b64_ops lm nt in
  MassFlows_from_values v = Ret mf -> last_unwrap (vs_time v) = Ret t ->
  nondecreasing (map value (vs_time v)) -> 0 < value t ->
  0 <= value (mf_chx mf) /\ 0 <= value (mf_regen mf) /\ 0 <= value (mf_hhx mf).
Proof. exact (mass_flows_nonneg_f64 lm nt v mf t). Qed.
Print Assumptions C81_non_negative.
Example C81_case :
  last_unwrap (vs_time swinging) = Ret (n_lit 3 (-2)) /\
  grid_to (map value (vs_time swinging)) (value (n_lit 3 (-2))) /\
  length (vs_time swinging) = length (vs_P swinging) /\
  Forall (fun a => finite a /\ 0 <= value a) (vs_P swinging) /\
  exists p m, Pressure_from_values swinging = Ret p /\ MassFlows_from_values swinging = Ret m /\
    finite (pr_avg p) /\ (finite (mf_chx m) /\ 0 < value (mf_chx m)) /\
    (finite (mf_regen m) /\ 0 < value (mf_regen m)) /\ (finite (mf_hhx m) /\ 0 < value (mf_hhx m)).
Proof. exact swinging_case. Qed.

(** C82: the average pressure and the extremes.  Expected: between them; false of a constant pressure. *)
Theorem C82_between_refuted : exists (v : Values b64) (p : Pressure b64) (t P : b64),
  Pressure_from_values v = Ret p /\ last_unwrap (vs_time v) = Ret t /\
  grid_to (map value (vs_time v)) (value t) /\ length (vs_time v) = length (vs_P v) /\
  Forall (fun a => finite a /\ 0 <= value a) (vs_P v) /\ finite (pr_avg p) /\
  (forall a, In a (vs_P v) -> a = P) /\ value (pr_max p) < value (pr_avg p).
Proof. exact average_above_all. Qed.
Print Assumptions C82_between_refuted.
Theorem C82_nearly_between (lm : Libm) (nt : bool) (v : Values b64) (p : Pressure b64) (t : b64) :
  let ops := b64_ops lm nt in
  Pressure_from_values v = Ret p -> last_unwrap (vs_time v) = Ret t ->
  grid_to (map value (vs_time v)) (value t) -> length (vs_time v) = length (vs_P v) ->
  Forall (fun a => finite a /\ 0 <= value a) (vs_P v) -> finite (pr_avg p) ->
  let n := panels (vs_time v) in let g := growth (n + 5) in
  let d := underflow n (value t) + (1 + unit_roundoff) ^ (n + 5) * tiny in
  (1 - g) * value (pr_min p) - d <= value (pr_avg p) <= (1 + g) * value (pr_max p) + d.
Proof. exact (pressure_between_f64 lm nt v p t). Qed.
Print Assumptions C82_nearly_between.

(** C83: temperatures in order *)
Theorem C83_ordered (lm : Libm) (nt : bool) (sink source : b64) (ap : Approach b64) (imb : b64) :
  let T := @Temperatures_from_approach b64 (b64_ops lm nt) sink source ap imb in
  (forall x, In x [te_chx T; te_hhx T; rt_cold (te_regen T); rt_hot (te_regen T)] -> finite x) ->
  (forall a, In a [ap_chx ap; ap_regen ap; ap_hhx ap] -> 0 <= value a) ->
  value sink <= value (te_chx T) <= value (rt_cold (te_regen T)) /\
  value (rt_hot (te_regen T)) <= value (te_hhx T) <= value source.
Proof. exact (temperatures_ordered lm nt sink source ap imb). Qed.
Print Assumptions C83_ordered.
Theorem C83_run (lm : Libm) (nt : bool) (E : Env b64) (D : Decomp b64) (comps : Components b64)
    (fl : Fluid b64) (inputs : RunInputs b64) (settings : RunSettings b64) (e : Engine b64) :
  approaches_forward (co_chx comps) -> approaches_forward (co_regen comps) ->
  approaches_forward (co_hhx comps) ->
  @Engine_run b64 (b64_ops lm nt) E D comps fl inputs settings = Ret (Ok e) ->
  let T := s_temp (en_state e) in
  value (ri_temp_sink inputs) <= value (te_chx T) <= value (rt_cold (te_regen T)) /\
  value (rt_hot (te_regen T)) <= value (te_hhx T) <= value (ri_temp_source inputs).
Proof. exact (run_ordered lm nt E D comps fl inputs settings e). Qed.
Print Assumptions C83_run.
Theorem C83_fixed_approach (f : FixedApproach b64) : 0 <= value (fa_approach f) ->
  approaches_forward (chx_FixedApproach f) /\ approaches_forward (regen_FixedApproach f) /\
  approaches_forward (hhx_FixedApproach f).
Proof. exact (fixed_forward f). Qed.
Print Assumptions C83_fixed_approach.
Example C83_case :
  (approaches_forward (co_chx fa_comps) /\ approaches_forward (co_regen fa_comps) /\
   approaches_forward (co_hhx fa_comps)) /\
  exists eng,
    Engine_run demo_env gauss fa_comps helium demo_inputs (settings_of fa_config) = Ret (Ok eng) /\
    length (vs_time (en_values eng)) = 4%nat.
Proof. exact (conj fa_forward fa_runs). Qed.

(** C84: volumes of the sinusoidal drive *)
Theorem C84_volumes (lm : Libm) (nt : bool) (d : SinusoidalDrive b64) (time : b64) :
  let ops := b64_ops lm nt in
  cosine_bounded lm ->
  finite (n_add (n_mul (n_mul (n_mul (n_lit 2 0) n_pi) (sd_frequency d)) time)
                (n_div (n_mul (sd_phase_angle d) n_pi) (n_lit 180 0))) ->
  let c := sd_comp_geometry d in let e := sd_exp_geometry d in
  (forall g, In g [c; e] -> finite (sg_clearance_volume g) /\ 0 <= value (sg_clearance_volume g) /\
     finite (sg_swept_volume g) /\ 0 <= value (sg_swept_volume g) /\ halvable (sg_swept_volume g) /\
     finite (n_add (sg_clearance_volume g) (sg_swept_volume g))) ->
  let Vc := v_value (fst (sin_volumes d time)) in let Ve := v_value (snd (sin_volumes d time)) in
  (finite Vc /\ value (sg_clearance_volume c) <= value Vc
             <= value (n_add (sg_clearance_volume c) (sg_swept_volume c))) /\
  (finite Ve /\ value (sg_clearance_volume e) <= value Ve
             <= value (n_add (sg_clearance_volume e) (sg_swept_volume e))).
Proof. exact (sin_bounds_f64 lm nt d time). Qed.
Print Assumptions C84_volumes.
Example C84_case :
  let ops := b64_ops kept_libm true in
  let d := default_drive in
  cosine_bounded kept_libm /\
  finite (n_add (n_mul (n_mul (n_mul (n_lit 2 0) n_pi) (sd_frequency d)) quarter_turn)
                (n_div (n_mul (sd_phase_angle d) n_pi) (n_lit 180 0))) /\
  (forall g, In g [sd_comp_geometry d; sd_exp_geometry d] ->
     finite (sg_clearance_volume g) /\ 0 <= value (sg_clearance_volume g) /\
     finite (sg_swept_volume g) /\ 0 <= value (sg_swept_volume g) /\ halvable (sg_swept_volume g) /\
     finite (n_add (sg_clearance_volume g) (sg_swept_volume g))).
Proof. exact drive_case. Qed.
