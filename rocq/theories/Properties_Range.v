(** * C99: engines of ordinary size do not overflow in f64 *)
From Coq Require Import ZArith NArith List Reals.
From Flocq Require Import Core BinarySingleNaN.
From Verif Require Import Num ModelTypes ModelWs ModelHx ModelStateEq ModelEngine B64 Fixture SpecR SpecF64 SpecRound
  SpecBalance SpecRange F64BalanceCase F64Range F64RangeCase.
Local Open Scope R_scope.

Theorem C99_properties (lm : Libm) (nt : bool) (name : GasName) (T P : b64) :
  let _ : NumOps b64 := b64_ops lm nt in
  ordinary_temp T -> ordinary_pres P -> finite_properties (IdealGas_Fluid (IdealGas_new name)) T P.
Proof. exact (properties_finite lm nt name T P). Qed.
Print Assumptions C99_properties.
Theorem C99_drive (lm : Libm) (nt : bool) (d : SinusoidalDrive b64) (t : b64) :
  let _ : NumOps b64 := b64_ops lm nt in
  cosine_bounded lm -> sine_bounded lm -> ordinary_drive d -> upto 40 t ->
  ordinary_volume (fst (sin_volumes d t)) /\ ordinary_volume (snd (sin_volumes d t)).
Proof. exact (drive_volumes lm nt d t). Qed.
Print Assumptions C99_drive.
(** any drive *)
Theorem C99_run (lm : Libm) (nt : bool) (name : GasName) (r : Run b64) (t : b64) (c : Conditions b64) (s : Solution b64) :
  let _ : NumOps b64 := b64_ops lm nt in
  ru_fluid r = IdealGas_Fluid (IdealGas_new name) -> ordinary_run r -> ordinary_conditions c ->
  ordinary_volume (fst (ru_ws_vol_fn r t)) -> ordinary_volume (snd (ru_ws_vol_fn r t)) ->
  finite_system (Run_calculate_inputs r t c) s.
Proof. exact (run_system_finite lm nt name r t c s). Qed.
Print Assumptions C99_run.
Theorem C99_engine (lm : Libm) (nt : bool) (name : GasName) (comps : Components b64) (d : SinusoidalDrive b64)
    (st : State b64) (r : Run b64) (t : b64) (c : Conditions b64) (s : Solution b64) :
  let _ : NumOps b64 := b64_ops lm nt in
  cosine_bounded lm -> sine_bounded lm -> co_ws comps = SinusoidalDrive_ws d -> Run_new comps st = Ret r ->
  s_fluid st = IdealGas_Fluid (IdealGas_new name) -> ordinary_engine comps d st ->
  from (-20) (ru_enth_norm r) -> upto 40 t -> ordinary_conditions c ->
  finite_system (Run_calculate_inputs r t c) s.
Proof. exact (engine_system_finite lm nt name comps d st r t c s). Qed.
Print Assumptions C99_engine.
Theorem C99_balances (lm : Libm) (nt : bool) (name : GasName) (comps : Components b64) (d : SinusoidalDrive b64)
    (st : State b64) (r : Run b64) (t : b64) (c : Conditions b64) (D : Decomp b64) (e : R) (hint : FlowDirection)
    (s : Solution b64) :
  let _ : NumOps b64 := b64_ops lm nt in
  cosine_bounded lm -> sine_bounded lm -> co_ws comps = SinusoidalDrive_ws d -> Run_new comps st = Ret r ->
  s_fluid st = IdealGas_Fluid (IdealGas_new name) -> ordinary_engine comps d st ->
  from (-20) (ru_enth_norm r) -> upto 40 t -> ordinary_conditions c ->
  let i := Run_calculate_inputs r t c in
  careful D e i -> 0 <= e -> solve D i hint = Ok s -> finite_solution s ->
  nearly_conserves e (input_values i) (solution_values s).
Proof. exact (engine_balances lm nt name comps d st r t c D e hint s). Qed.
Print Assumptions C99_balances.
Theorem C99_norm (lm : Libm) (nt : bool) (name : GasName) (comps : Components b64) (st : State b64) (r : Run b64) :
  let _ : NumOps b64 := b64_ops lm nt in
  Run_new comps st = Ret r -> s_fluid st = IdealGas_Fluid (IdealGas_new name) ->
  ordinary_temp (te_sink (s_temp st)) -> ordinary_temp (te_source (s_temp st)) -> finite (ru_enth_norm r).
Proof. exact (norm_finite lm nt name comps st r). Qed.
Print Assumptions C99_norm.
Theorem C99_helium_norm (lm : Libm) (nt : bool) (comps : Components b64) (st : State b64) (r : Run b64) :
  let _ : NumOps b64 := b64_ops lm nt in
  Run_new comps st = Ret r -> s_fluid st = IdealGas_Fluid (IdealGas_new Helium) ->
  ordinary_temp (te_sink (s_temp st)) -> ordinary_temp (te_source (s_temp st)) ->
  251 <= value (te_sink (s_temp st)) -> 251 <= value (te_source (s_temp st)) -> from (-20) (ru_enth_norm r).
Proof. exact (helium_norm lm nt comps st r). Qed.
Print Assumptions C99_helium_norm.
Example C99_case : let _ : NumOps b64 := b64_ops kept_both true in
  cosine_bounded kept_both /\ sine_bounded kept_both /\ upto 40 range_time /\ ordinary_conditions range_conditions /\
  (forall i, careful checked_gauss (bpow radix2 (-40)) i) /\
  co_ws range_comps = SinusoidalDrive_ws range_drive /\ exists st r s,
  Run_new range_comps st = Ret r /\ s_fluid st = IdealGas_Fluid (IdealGas_new Helium) /\
  ordinary_engine range_comps range_drive st /\
  251 <= value (te_sink (s_temp st)) /\ 251 <= value (te_source (s_temp st)) /\
  solve checked_gauss (Run_calculate_inputs r range_time range_conditions) FlowDirection_default = Ok s /\ finite_solution s.
Proof. exact range_case. Qed.
