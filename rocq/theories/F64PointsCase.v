(** * Output points placed by adding up steps: concrete runs in f64 *)
From Coq Require Import ZArith NArith List Reals Bool Lra Lia.
From Flocq Require Import Core BinarySingleNaN.
From Verif Require Import Num ModelTypes ModelWs ModelHx ModelStateEq ModelEngine ModelApi ModelExamples Spec SpecLoop SpecApi PolySolve PolyLoop PolyRun SpecExamples
  B64 SpecF64 SpecPoints F64Base F64Err F64More F64Examples Fixture Demo F64Points.
Import ListNotations.
Local Open Scope R_scope.
Local Open Scope bool_scope.

(** the added times up to [x_end], if there are at most [fuel] and all sums are finite *)
Fixpoint place (fuel : nat) (x_end dx t : b64) : option (list b64) :=
  match fuel with
  | O => None
  | S f => if is_finite t && is_finite x_end then
             if Bleb t x_end then option_map (cons t) (place f x_end dx (Bplus mode_NE t dx)) else Some []
           else None
  end.
(** an integrator that stays where it starts *)
Definition adding_env : Env b64 :=
  mkEnv (fun a => match place 100 (oa_x_end a) (oa_dx a) (oa_x a) with
                  | Some xs => ODone xs (map (fun _ => oa_y a) xs)
                  | None => OErr
                  end) true.

Lemma added_shift x dx k : added (Bplus mode_NE x dx) dx k = added x dx (S k).
Proof. induction k as [|k IH]; [reflexivity|]. cbn [added] in *. rewrite IH. reflexivity. Qed.
Lemma place_placed fuel x_end dx : forall t xs, place fuel x_end dx t = Some xs ->
  exists m, xs = map (added t dx) (seq 0 m) /\ (forall k, (k < m)%nat -> value (added t dx k) <= value x_end) /\
    value x_end < value (added t dx m).
Proof.
  induction fuel as [|f IH]; intros t xs H; cbn [place] in H; [discriminate|].
  destruct (is_finite t && is_finite x_end) eqn:HF; [|discriminate]. apply andb_true_iff in HF as (Ft & Fe).
  rewrite (Bleb_correct 53 1024 t x_end Ft Fe) in H.
  destruct (Rle_bool_spec (B2R t) (B2R x_end)) as [L|L].
  - destruct (place f x_end dx (Bplus mode_NE t dx)) as [xs'|] eqn:HP; [|discriminate]. cbn [option_map] in H. injection H as <-.
    destruct (IH _ _ HP) as (m & -> & Hb & Ha). exists (S m). split; [|split].
    + cbn [seq map]. f_equal. rewrite <- seq_shift, map_map. apply map_ext. intros k. apply added_shift.
    + intros [|k] Hk; [exact L|]. rewrite <- added_shift. apply Hb. lia.
    + rewrite <- added_shift. exact Ha.
  - injection H as <-. exists 0%nat. split; [reflexivity|]. split; [intros k Hk; lia|exact L].
Qed.
Lemma adding_adds : adds_times adding_env.
Proof.
  intros a. unfold adding_env. cbn [env_ode]. destruct (place 100 (oa_x_end a) (oa_dx a) (oa_x a)) as [xs|] eqn:HP; [|exact I].
  cbn [every_end]. split; [|apply map_length]. apply place_placed in HP as (m & -> & Hb & Ha).
  exists (oa_x_end a), m. split; [|split; [reflexivity|split; assumption]].
  rewrite Rminus_eq_0, Rabs_R0. pose proof (Rabs_pos (value (oa_x_end a))). lra.
Qed.

(** the engine of the example at [freq] with [n] output points *)
Definition at_speed (freq : b64) : Components b64 :=
  {| co_ws := SinusoidalDrive_ws
       {| sd_frequency := freq; sd_phase_angle := sd_phase_angle sweep_drive;
          sd_comp_geometry := sd_comp_geometry sweep_drive; sd_exp_geometry := sd_exp_geometry sweep_drive;
          sd_thermal_resistance := sd_thermal_resistance sweep_drive; sd_parasitics := sd_parasitics sweep_drive |};
     co_chx := co_chx sweep_components; co_regen := co_regen sweep_components; co_hhx := co_hhx sweep_components |}.
Definition with_points (n : N) : RunSettings b64 :=
  mkRunSettings n (rs_loop_tol sweep_settings) (rs_ode_tol sweep_settings) (rs_max_iters sweep_settings).
Definition speed_run (freq : b64) (n : N) : outcome (result (Engine b64) RunError) :=
  Engine_run adding_env gauss (at_speed freq) (IdealGas_Fluid IdealGas_hydrogen) (sweep_inputs (sweep_temp_source 0)) (with_points n).
Lemma speed_run_is freq n : speed_run freq n =
  Engine_run adding_env gauss (at_speed freq) (IdealGas_Fluid IdealGas_hydrogen) (sweep_inputs (sweep_temp_source 0)) (with_points n).
Proof. reflexivity. Qed.
Definition points_found (freq : b64) (n : N) (m : nat) : bool :=
  match speed_run freq n with Ret (Ok e) => (length (vs_time (en_values e)) =? m)%nat | _ => false end.
Lemma found_run freq n m : points_found freq n m = true ->
  exists e, speed_run freq n = Ret (Ok e) /\ length (vs_time (en_values e)) = m.
Proof.
  unfold points_found. destruct (speed_run freq n) as [[e|e]|p]; try discriminate. intros H. exists e.
  split; [reflexivity|]. apply Nat.eqb_eq. exact H.
Qed.

Lemma sf_value (x : b64) (m : BinNums.positive) (e : nat) : B2SF x = SpecFloat.S754_finite false m (- Z.of_nat e) ->
  finite x /\ value x = IZR (Zpos m) * / 2 ^ e.
Proof.
  intros E. split.
  - unfold finite. rewrite <- is_finite_SF_B2SF, E. reflexivity.
  - unfold value. rewrite <- SF2R_B2SF, E. unfold SF2R, F2R. cbn [Fnum Fexp cond_Zopp]. rewrite bpow_neg. reflexivity.
Qed.
Lemma period_70 : finite (n_div n1 (n_lit 70 0)) /\ value (n_div n1 (n_lit 70 0)) = 8235153604334621 * / 2 ^ 59.
Proof. apply sf_value. vm_compute. reflexivity. Qed.
Lemma period_10s : finite (n_div n1 (n_lit 1 (-1))) /\ value (n_div n1 (n_lit 1 (-1))) = 5629499534213120 * / 2 ^ 49.
Proof. apply sf_value. vm_compute. reflexivity. Qed.
Lemma period_50 : finite (n_div n1 (n_lit 50 0)) /\ value (n_div n1 (n_lit 50 0)) = 5764607523034235 * / 2 ^ 58.
Proof. apply sf_value. vm_compute. reflexivity. Qed.

(** the speed and the number of points of the example *)
Lemma speed_case : adds_times adding_env /\ (exists e, speed_run (n_lit 70 0) 30 = Ret (Ok e) /\
    ws_frequency (co_ws (at_speed (n_lit 70 0))) (mkWsState (s_pres (en_state e))) = Ret (n_lit 70 0)) /\
  let p := n_div n1 (n_lit 70 0) in
  finite p /\ 3 / 10 ^ 14 * (INR (N.to_nat 30) - 1) <= value p /\ (INR (N.to_nat 30) + 9) * value p <= 179.
Proof.
  split; [exact adding_adds|]. split.
  - assert (K : points_found (n_lit 70 0) 30 30 = true) by (vm_cast_no_check (eq_refl true)).
    apply found_run in K as (e & He & _). exists e. split; [exact He|reflexivity].
  - cbv zeta. destruct period_70 as (F & V). split; [exact F|]. rewrite V.
    replace (INR (N.to_nat 30)) with 30 by (rewrite INR_IZR_INZ, N_nat_Z; reflexivity). split; lra.
Qed.
(** one cycle in ten seconds, 54 points asked for *)
Lemma slow_run : exists e, speed_run (n_lit 1 (-1)) 54 = Ret (Ok e) /\
    ws_frequency (co_ws (at_speed (n_lit 1 (-1)))) (mkWsState (s_pres (en_state e))) = Ret (n_lit 1 (-1)) /\
    length (vs_time (en_values e)) = 53%nat.
Proof.
  assert (K : points_found (n_lit 1 (-1)) 54 53 = true) by (vm_cast_no_check (eq_refl true)).
  apply found_run in K as (e & He & L). exists e. split; [exact He|]. split; [reflexivity|exact L].
Qed.
Lemma slow_refutes : ~ (forall (E : Env b64) (D : Decomp b64) comps fl inputs settings (e : Engine b64) (freq : b64),
  adds_times E -> Engine_run E D comps fl inputs settings = Ret (Ok e) ->
  ws_frequency (co_ws comps) (mkWsState (s_pres (en_state e))) = Ret freq ->
  let n := rs_resolution settings in let p := n_div n1 freq in
  (2 <= n < 2 ^ 32)%N -> finite p -> 3 / 10 ^ 14 * (INR (N.to_nat n) - 1) <= value p ->
  length (vs_time (en_values e)) = N.to_nat n).
Proof.
  intros H. destruct slow_run as (e & He & Hf & L). rewrite speed_run_is in He.
  destruct period_10s as (F & V).
  assert (N54 : INR (N.to_nat (rs_resolution (with_points 54))) = 54).
  { change (rs_resolution (with_points 54)) with 54%N. rewrite INR_IZR_INZ, N_nat_Z. reflexivity. }
  assert (K : length (vs_time (en_values e)) = N.to_nat (rs_resolution (with_points 54))).
  { refine (H _ _ _ _ _ _ e _ adding_adds He Hf _ F _).
    - split; [discriminate|reflexivity].
    - rewrite N54, V. lra. }
  clear - K L N54. rewrite <- K, L in N54. rewrite INR_IZR_INZ in N54. apply eq_IZR in N54. discriminate N54.
Qed.
(** without the guard the last of 11 points at 50 cycles per second would be beyond the period *)
Lemma guard_needed : let p := n_div n1 (n_lit 50 0) in
  finite p /\ 3 / 10 ^ 14 * 10 <= value p /\ (11 + 9) * value p <= 179 /\
  value p < value (added n0 (n_div p (n_of_u32 10)) 10).
Proof.
  cbv zeta. destruct period_50 as (F & V). split; [exact F|]. 
  assert (W : finite (added n0 (n_div (n_div n1 (n_lit 50 0)) (n_of_u32 10)) 10) /\
    value (added n0 (n_div (n_div n1 (n_lit 50 0)) (n_of_u32 10)) 10) = 5764607523034236 * / 2 ^ 58).
  { apply sf_value. vm_compute. reflexivity. }
  rewrite (proj2 W), V. split; [lra|]. split; lra.
Qed.
(** the integrations of that run *)
Lemma two_case : exists c ic pts, adds_times adding_env /\ finite (cy_period c) /\ 3 / 10 ^ 14 <= value (cy_period c) <= 16 /\
  integrates adding_env gauss c ic 1 (rs_ode_tol (with_points 30)) pts.
Proof.
  destruct speed_case as (HA & (e & He & Hf) & _). rewrite speed_run_is in He.
  assert (HC : en_components e = at_speed (n_lit 70 0)).
  { apply Engine_run_Ok in He as (s0 & j & k1 & k2 & vs & _ & _ & _ & _ & _ & _ & HC). exact HC. }
  apply run_steady in He as (c & ic & pts2 & N & pts & vs & Hc & _ & HI & _).
  rewrite HC in Hc. destruct Hc as (vols & freq & par & Vk & Vr & Vl & _ & Hf' & _ & _ & _ & _ & Hper & _).
  rewrite Hf in Hf'. assert (n_lit 70 0 = freq) as <- by congruence. destruct period_70 as (F & V).
  exists c, ic, pts2. split; [exact HA|]. rewrite Hper. split; [exact F|]. split; [rewrite V; lra|exact HI].
Qed.
