(** * The rhombic drive over f64 *)
From Coq Require Import ZArith NArith List Reals Bool.
From Flocq Require Import Core BinarySingleNaN.
From Verif Require Import Num ModelTypes ModelWs B64 SpecF64 SpecRound SpecCrank F64Rhombic F64RhombicCase.
Local Open Scope R_scope.

(** C127: volumes of the rhombic drive *)
Theorem C127_volumes (lm : Libm) (nt : bool) (d : RhombicDrive b64) (time : b64) :
  let ops := b64_ops lm nt in
  cosine_bounded lm -> sine_bounded lm -> finite (n_mul (turn_rate lm nt d) time) -> crank_fits lm nt d ->
  let V := rh_volumes d time in
  finite (comp_greatest lm nt d) -> finite (exp_least lm nt d) -> finite (exp_greatest lm nt d) ->
  (finite (v_value (fst V)) /\
   value (rd_V_clearance_c d) <= value (v_value (fst V)) <= value (comp_greatest lm nt d)) /\
  (finite (v_value (snd V)) /\
   value (exp_least lm nt d) <= value (v_value (snd V)) <= value (exp_greatest lm nt d)).
Proof. exact (rh_bounds_f64 lm nt d time). Qed.
Print Assumptions C127_volumes.
Theorem C127_rates (lm : Libm) (nt : bool) (d : RhombicDrive b64) (time : b64) :
  let ops := b64_ops lm nt in
  cosine_bounded lm -> sine_bounded lm -> finite (n_mul (turn_rate lm nt d) time) -> crank_fits lm nt d ->
  let V := rh_volumes d time in
  0 < value (outwards lm nt d) -> 0 < value (n_mul (n_lit 2 0) (disc lm nt (rg_D_p (rd_geometry d)))) ->
  finite (n_mul (comp_slope lm nt d) (n_abs (turn_rate lm nt d))) ->
  finite (n_mul (exp_slope lm nt d) (n_abs (turn_rate lm nt d))) ->
  (finite (v_deriv (fst V)) /\
   Rabs (value (v_deriv (fst V))) <= value (n_mul (comp_slope lm nt d) (n_abs (turn_rate lm nt d)))) /\
  (finite (v_deriv (snd V)) /\
   Rabs (value (v_deriv (snd V))) <= value (n_mul (exp_slope lm nt d) (n_abs (turn_rate lm nt d)))).
Proof. exact (rh_rates_f64 lm nt d time). Qed.
Print Assumptions C127_rates.
(** the default drive *)
Example C127_case :
  cosine_bounded turn_libm /\ sine_bounded turn_libm /\
  finite (n_mul (turn_rate turn_libm true turn_drive) one_ms (NumOps:=b64_ops turn_libm true)) /\
  crank_fits turn_libm true turn_drive /\
  finite (comp_greatest turn_libm true turn_drive) /\ finite (exp_least turn_libm true turn_drive) /\
  finite (exp_greatest turn_libm true turn_drive) /\ 0 < value (outwards turn_libm true turn_drive).
Proof. exact crank_case. Qed.
Example C127_rates_case :
  let ops := b64_ops turn_libm true in
  0 < value (n_mul (n_lit 2 0) (disc turn_libm true (rg_D_p (rd_geometry turn_drive)))) /\
  finite (n_mul (comp_slope turn_libm true turn_drive) (n_abs (turn_rate turn_libm true turn_drive))) /\
  finite (n_mul (exp_slope turn_libm true turn_drive) (n_abs (turn_rate turn_libm true turn_drive))).
Proof. exact rates_case. Qed.

(** ... and where the rod does not reach, nothing but NaN comes out *)
Theorem C127_short (lm : Libm) (nt : bool) (d : RhombicDrive b64) (time : b64) :
  let ops := b64_ops lm nt in
  let l := rg_L_conn (rd_geometry d) in
  let x := n_add (rg_eccentricity (rd_geometry d))
             (n_mul (rg_r_crank (rd_geometry d)) (n_cos (n_mul (turn_rate lm nt d) time))) in
  value (n_sub (n_mul l l) (n_mul x x)) < 0 ->
  let V := rh_volumes d time in
  v_value (fst V) = B754_nan /\ v_deriv (fst V) = B754_nan /\
  v_value (snd V) = B754_nan /\ v_deriv (snd V) = B754_nan.
Proof. exact (rh_short lm nt d time). Qed.
Print Assumptions C127_short.
Example C127_short_case :
  let ops := b64_ops turn_libm true in
  let l := rg_L_conn (rd_geometry short_drive) in
  let x := n_add (rg_eccentricity (rd_geometry short_drive))
             (n_mul (rg_r_crank (rd_geometry short_drive))
                (n_cos (n_mul (turn_rate turn_libm true short_drive) (b64_lit 0 0)))) in
  value (n_sub (n_mul l l) (n_mul x x)) < 0.
Proof. exact short_case. Qed.
