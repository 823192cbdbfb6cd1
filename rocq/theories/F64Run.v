(** * What a successful f64 run says about its inputs and settings *)
From Coq Require Import ZArith NArith List Reals Bool.
From Flocq Require Import Core BinarySingleNaN.
From Verif Require Import Num ModelTypes ModelWs ModelHx ModelStateEq ModelEngine ModelApi Spec SpecLoop
  SpecApi PolyRun PolyMore PolyApi B64 SpecF64 F64Base F64Conv.
Import ListNotations.

Lemma plus_finite (x y : b64) : finite (Bplus mode_NE x y) -> finite x /\ finite y.
Proof.
  unfold finite. destruct x as [sx|sx| |sx mx ex bx], y as [sy|sy| |sy my ey bY]; cbn; try tauto; try discriminate.
  all: try (destruct (Bool.eqb sx sy); discriminate); try (intros H; discriminate H).
Qed.
Lemma minus_finite (x y : b64) : finite (Bminus mode_NE x y) -> finite x /\ finite y.
Proof.
  unfold finite. destruct x as [sx|sx| |sx mx ex bx], y as [sy|sy| |sy my ey bY]; cbn; try tauto; try discriminate.
  all: try (destruct (Bool.eqb sx (negb sy)); discriminate); try (intros H; discriminate H).
Qed.

Section F64Run.
  Context (lm : Libm) (nan_top : bool).
  Local Instance f64_ops : NumOps b64 := b64_ops lm nan_top.

  Lemma run_sane (E : Env b64) (D : Decomp b64) (comps : Components b64) (fl : Fluid b64)
      (inputs : RunInputs b64) (settings : RunSettings b64) (e : Engine b64) :
    Engine_run E D comps fl inputs settings = Ret (Ok e) ->
    finite (ri_temp_sink inputs) /\ finite (ri_temp_source inputs) /\
    Forall above_zero [ct_abs (lt_outer (rs_loop_tol settings)); ct_rel (lt_outer (rs_loop_tol settings));
                       ct_abs (lt_inner (rs_loop_tol settings)); ct_rel (lt_inner (rs_loop_tol settings))] /\
    mi_outer (rs_max_iters settings) <> 0%N /\ mi_inner (rs_max_iters settings) <> 0%N.
  Proof.
    intros H. destruct (run_ok_meaning E D comps fl inputs settings e H)
      as (s0 & j & H0 & Hj & _ & Hs & Ho & _).
    destruct (run_boundary E D comps fl inputs settings e H) as (_ & _ & B1 & B2 & _).
    destruct Ho as (P & m & q & T' & Hr & C). destruct Hr as (R & ak & ar & al & _ & _ & _ & _ & _ & _ & _ & HT).
    destruct HT as (_ & _ & T1 & T2 & _). destruct C as (C1 & C2 & _).
    apply close_converged, converged_regular in C1, C2. rewrite T1 in C1. rewrite T2 in C2.
    rewrite B1 in C1. rewrite B2 in C2.
    destruct C1 as (_ & F1 & _ & A1 & A2), C2 as (_ & F2 & _ & _ & _).
    destruct Hs as (c & ic & pts2 & n & pts & vs & j' & _ & Hj' & _ & _ & Cy & _).
    destruct Cy as (first & last & pre & post & _ & _ & K1 & _).
    apply close_converged, converged_regular in K1. destruct K1 as (_ & _ & _ & A3 & A4).
    split; [exact (proj1 (plus_finite _ _ F1))|]. split; [exact (proj1 (minus_finite _ _ F2))|].
    split; [repeat constructor; assumption|].
    split; intros Z; [rewrite Z in Hj|rewrite Z in Hj']; [inversion Hj|inversion Hj'].
  Qed.

  (** the first gas temperatures of the series *)
  Lemma run_first_gas (E : Env b64) (D : Decomp b64) (comps : Components b64) (fl : Fluid b64)
      (inputs : RunInputs b64) (settings : RunSettings b64) (e : Engine b64) :
    reports_start E ->
    Engine_run E D comps fl inputs settings = Ret (Ok e) ->
    exists T_c rest_c T_e rest_e,
      vs_T_c (en_values e) = T_c :: rest_c /\ vs_T_e (en_values e) = T_e :: rest_e /\
      finite T_c /\ value T_c <> 0%R /\ finite T_e /\ value T_e <> 0%R.
  Proof.
    intros HE H. destruct (run_steady_state E D comps fl inputs settings e H)
      as (c & ic & pts2 & n & pts & vs & j & _ & _ & _ & I2 & Cy & _ & I & V & S).
    apply (integrates_first _ _ _ _ _ _ _ HE) in I2 as (p2 & pts2' & -> & Hp2).
    apply (integrates_first _ _ _ _ _ _ _ HE) in I as (p & pts' & -> & Hp).
    destruct Cy as (first & last & pre & post & Ef & _ & K1 & K2). injection Ef as <- <-.
    apply close_converged, converged_regular in K1, K2. rewrite Hp2 in K1. rewrite Hp2 in K2.
    inversion V as [|p' x ptl vtl (_ & Hx & _) Htl]; subst.
    destruct S as (_ & _ & S1 & S2 & _).
    inversion S1 as [|? ? ? ? E1]; subst. inversion S2 as [|? ? ? ? E2]; subst.
    do 4 eexists. split; [reflexivity|]. split; [reflexivity|]. rewrite Hx, Hp. tauto.
  Qed.
End F64Run.
