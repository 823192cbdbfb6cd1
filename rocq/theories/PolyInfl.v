(** * What a run depends on, any number type *)
From Coq Require Import ZArith NArith List.
From Verif Require Import Num ModelTypes ModelWs ModelHx ModelStateEq ModelEngine ModelApi SpecInfl.

Section PolyInfl.
  Context {F : Type} {ops : NumOps F}.
  Variable E : Env F.
  Variable U : Decomp F.

  Lemma run_new_same a b (s : State F) : same_duties a b ->
    match Run_new a s, Run_new b s with
    | Ret r, Ret r' => Run_Cycle r = Run_Cycle r'
    | Panic x, Panic y => x = y
    | _, _ => False
    end.
  Proof.
    intros (Hw & (Vk & _ & _) & (Vr & _ & _) & (Vl & _ & _)).
    destruct (Hw (State_ws s)) as (Hf & Hv & _ & Hp).
    unfold Run_new. rewrite Vk, Vr, Vl, Hf, Hv.
    destruct (ex_volume (co_chx b)); [|reflexivity]. cbn [obind].
    destruct (ex_volume (co_regen b)); [|reflexivity]. cbn [obind].
    destruct (ex_volume (co_hhx b)); [|reflexivity]. cbn [obind].
    destruct (ws_frequency (co_ws b) (State_ws s)); [|reflexivity]. cbn [obind].
    destruct (ws_volumes (co_ws b) (State_ws s)); [|reflexivity]. cbn [obind].
    unfold same_thermal in Hp.
    destruct (ws_parasitics (co_ws a) (State_ws s)) as [[[p1 p2 p3] [p4 p5 p6]]|];
      destruct (ws_parasitics (co_ws b) (State_ws s)) as [[[q1 q2 q3] [q4 q5 q6]]|];
      cbn [obind]; try contradiction; [|exact Hp].
    cbn in Hp. destruct Hp as [-> ->]. reflexivity.
  Qed.

  Lemma state_update_same a b (s : State F) v tol : same_duties a b ->
    State_update s a v tol = State_update s b v tol.
  Proof.
    intros (Hw & (_ & _ & Ak) & (_ & _ & Ar) & (_ & _ & Al)).
    destruct (Hw (State_ws s)) as (_ & _ & Ht & _).
    unfold State_update. rewrite Ht.
    destruct (Pressure_from_values v); [|reflexivity]. cbn [obind].
    destruct (MassFlows_from_values v); [|reflexivity]. cbn [obind].
    destruct (ws_thermal_resistance (co_ws b) (State_ws s)) as [tr|]; [|reflexivity]. cbn [obind].
    destruct (HeatFlows_from_values v (te_chx (s_temp s)) (te_hhx (s_temp s)) tr); [|reflexivity]. cbn [obind].
    rewrite Ak, Ar, Al. reflexivity.
  Qed.

  Lemma run_loop_same a b settings n : same_duties a b -> forall (s : State F),
    fst (run_loop E U a settings n s) = fst (run_loop E U b settings n s) /\
    same_run (snd (run_loop E U a settings n s)) (snd (run_loop E U b settings n s)).
  Proof.
    intros H. induction n as [|n IH]; intros s; [split; reflexivity|].
    cbn [run_loop]. pose proof (run_new_same a b s H) as HR.
    destruct (Run_new a s) as [r|x]; destruct (Run_new b s) as [r'|y]; try contradiction;
      [|split; [reflexivity|exact HR]].
    rewrite HR.
    match goal with |- context [find_steady_state_counted E U ?c ?i] =>
      destruct (find_steady_state_counted E U c i) as [k [[vs|e]|p]] end;
      [|split; reflexivity|split; reflexivity].
    rewrite (state_update_same a b s _ _ H).
    destruct (State_update s b (Values_from vs) (lt_outer (rs_loop_tol settings))) as [[s'|s']|p];
      [|split; [reflexivity|split; reflexivity]|split; reflexivity].
    destruct (IH s') as [I1 I2].
    destruct (run_loop E U a settings n s') as [ka ra].
    destruct (run_loop E U b settings n s') as [kb rb]. cbn [fst snd] in *. subst kb.
    split; [reflexivity|exact I2].
  Qed.

  Lemma engine_run_same a b fl i settings : same_duties a b ->
    fst (Engine_run_counted E U a fl i settings) = fst (Engine_run_counted E U b fl i settings) /\
    same_run (Engine_run E U a fl i settings) (Engine_run E U b fl i settings).
  Proof.
    intros H. unfold Engine_run, Engine_run_counted.
    assert (HN : State_new_hint a fl i = State_new_hint b fl i).
    { destruct H as (_ & (_ & Ik & _) & (_ & Ir & _) & (_ & Il & _)).
      unfold State_new_hint. rewrite Ik, Ir, Il. reflexivity. }
    rewrite HN. destruct (State_new_hint b fl i) as [s|x]; [|split; reflexivity].
    apply run_loop_same. exact H.
  Qed.

  (** the component models of the crate *)
  Lemma fixed_approach_duty {S} v a R R' (p p' : ParasiticPower F) :
    same_duty (S := S)
      (mkExch (Ret v) (fun _ => Ret a) (fun _ => Ret R) (fun _ => Ret p) (Ret a))
      (mkExch (Ret v) (fun _ => Ret a) (fun _ => Ret R') (fun _ => Ret p') (Ret a)).
  Proof. repeat split. Qed.
  Lemma chx_fa_duty v a R R' (p p' : ParasiticPower F) :
    same_duty (chx_FixedApproach (mkFA R v a p)) (chx_FixedApproach (mkFA R' v a p')).
  Proof. exact (fixed_approach_duty v a R R' p p'). Qed.
  Lemma regen_fa_duty v a R R' (p p' : ParasiticPower F) :
    same_duty (regen_FixedApproach (mkFA R v a p)) (regen_FixedApproach (mkFA R' v a p')).
  Proof. exact (fixed_approach_duty v a R R' p p'). Qed.
  Lemma hhx_fa_duty v a R R' (p p' : ParasiticPower F) :
    same_duty (hhx_FixedApproach (mkFA R v a p)) (hhx_FixedApproach (mkFA R' v a p')).
  Proof. exact (fixed_approach_duty v a R R' p p'). Qed.
  Lemma chx_fc_duty v u R R' (p p' : ParasiticPower F) :
    same_duty (chx_FixedConductance (mkFC R v u p)) (chx_FixedConductance (mkFC R' v u p')).
  Proof. repeat split. Qed.
  Lemma regen_fc_duty v u R R' (p p' : ParasiticPower F) :
    same_duty (regen_FixedConductance (mkFC R v u p)) (regen_FixedConductance (mkFC R' v u p')).
  Proof. repeat split. Qed.
  Lemma hhx_fc_duty v u R R' (p p' : ParasiticPower F) :
    same_duty (hhx_FixedConductance (mkFC R v u p)) (hhx_FixedConductance (mkFC R' v u p')).
  Proof. repeat split. Qed.
  Lemma sin_motion f ph c e tr t1 t2 m1 m2 e1 e2 m1' m2' e1' e2' :
    same_motion
      (SinusoidalDrive_ws (mkSin f ph c e tr (mkPar (mkPP t1 m1 e1) (mkPP t2 m2 e2)) : SinusoidalDrive F))
      (SinusoidalDrive_ws (mkSin f ph c e tr (mkPar (mkPP t1 m1' e1') (mkPP t2 m2' e2')))).
  Proof. intros s. repeat split. Qed.
  Lemma rh_motion f g t1 t2 m1 m2 e1 e2 m1' m2' e1' e2' Rc Re Vc Ve :
    same_motion
      (RhombicDrive_ws (mkRh f g (mkPar (mkPP t1 m1 e1) (mkPP t2 m2 e2)) Rc Re Vc Ve : RhombicDrive F))
      (RhombicDrive_ws (mkRh f g (mkPar (mkPP t1 m1' e1') (mkPP t2 m2' e2')) Rc Re Vc Ve)).
  Proof. intros s. repeat split. Qed.
  Lemma duties (a b : Components F) :
    same_motion (co_ws a) (co_ws b) -> same_duty (co_chx a) (co_chx b) ->
    same_duty (co_regen a) (co_regen b) -> same_duty (co_hhx a) (co_hhx b) -> same_duties a b.
  Proof. intros H1 H2 H3 H4. exact (conj H1 (conj H2 (conj H3 H4))). Qed.
End PolyInfl.
