(** * Default components in f64 *)
From Coq Require Import ZArith NArith List.
From Flocq Require Import IEEE754.BinarySingleNaN.
From Verif Require Import Num ModelTypes ModelWs ModelHx B64.

Lemma lit_eq : b64_lit 1 (-4) = b64_lit 10 (-5).
Proof. apply B2SF_inj. vm_compute. reflexivity. Qed.
Lemma lit_ne : b64_lit 698 (-4) <> b64_lit 696 (-4).
Proof.
  intros H. apply (f_equal (fun x => SpecFloat.SFeqb (B2SF x) (B2SF (b64_lit 696 (-4))))) in H.
  vm_compute in H. discriminate H.
Qed.
Lemma regenerator_agrees64 lm nan : regen_FixedApproach_from (ops:=b64_ops lm nan) (RegenFAConfig_default (ops:=b64_ops lm nan)) =
  regen_FixedApproach_default (ops:=b64_ops lm nan).
Proof.
  unfold regen_FixedApproach_from, RegenFAConfig_default, regen_FixedApproach_default, ParasiticPower_default.
  cbn [rfa_R_hyd rfa_vol rfa_DT rfa_Q_parasitic]. change (n_lit (NumOps:=b64_ops lm nan)) with b64_lit.
  rewrite lit_eq. reflexivity.
Qed.
Lemma rhombic_differs64 lm nan : RhombicDrive_from (RhConfig_default (ops:=b64_ops lm nan)) (ops:=b64_ops lm nan) <>
  RhombicDrive_default (ops:=b64_ops lm nan).
Proof. intros H. apply (f_equal (fun d => rg_D_d (rd_geometry d))) in H. exact (lit_ne H). Qed.
