(** * Specification over f64: a rhombic drive whose crank can turn *)
From Coq Require Import ZArith NArith List Reals Bool.
From Flocq Require Import Core BinarySingleNaN.
From Verif Require Import Num ModelTypes ModelWs B64 SpecF64.
Local Open Scope R_scope.

(** sines of finite angles lie between -1 and 1 *)
Definition sine_bounded (lm : Libm) : Prop :=
  forall x, finite x -> finite (lm_sin lm x) /\ -1 <= value (lm_sin lm x) <= 1.

Section Crank.
  Context (lm : Libm) (nt : bool).
  #[local] Instance kops : NumOps b64 := b64_ops lm nt.
  Local Notation "x '⊕' y" := (@n_add b64 kops x y) (at level 50, left associativity).
  Local Notation "x '⊖' y" := (@n_sub b64 kops x y) (at level 50, left associativity).
  Local Notation "x '⊗' y" := (@n_mul b64 kops x y) (at level 40, left associativity).
  Local Notation "x '⊘' y" := (@n_div b64 kops x y) (at level 40, left associativity).

  (** the height of a rod of length [l] whose end is off by [x], as computed *)
  Definition height (l x : b64) : b64 := n_sqrt (l ⊗ l ⊖ x ⊗ x).
  (** areas of a circle of diameter [d], as computed *)
  Definition disc (d : b64) : b64 := n_pi ⊗ (d ⊗ d) ⊘ n_lit 4 0.

  Context (d : RhombicDrive b64).
  Let e := rg_eccentricity (rd_geometry d).
  Let r := rg_r_crank (rd_geometry d).
  Let l := rg_L_conn (rd_geometry d).
  (** the crank is not longer than the eccentricity, the rod at least as long as both together *)
  Definition crank_fits : Prop :=
    finite e /\ finite r /\ finite l /\ finite (l ⊗ l) /\
    0 <= value r /\ value r <= value e /\ value e + value r <= value l.
  (** the heights of the piston rod with the crank inwards and outwards, and the offset of the displacer *)
  Definition inwards : b64 := height l (e ⊖ r).
  Definition outwards : b64 := height l (e ⊕ r).
  Definition offset : b64 := height (l ⊖ r) e.
  (** volumes computed for the extreme positions *)
  Definition comp_greatest : b64 :=
    rd_V_clearance_c d ⊕ n_lit 2 0 ⊗ disc (rg_D_p (rd_geometry d)) ⊗ (inwards ⊖ outwards).
  Definition exp_least : b64 := rd_V_clearance_e d ⊕ disc (rg_D_d (rd_geometry d)) ⊗ (outwards ⊖ offset ⊖ r).
  Definition exp_greatest : b64 := rd_V_clearance_e d ⊕ disc (rg_D_d (rd_geometry d)) ⊗ (inwards ⊖ offset ⊕ r).
  (** the fastest changes of the two volumes *)
  Definition turn_rate : b64 := n_lit 2 0 ⊗ n_pi ⊗ rd_frequency d.
  Definition comp_slope : b64 :=
    n_lit 2 0 ⊗ disc (rg_D_p (rd_geometry d)) ⊗ r ⊗ (e ⊕ r) ⊘ outwards.
  Definition exp_slope : b64 :=
    comp_slope ⊗ disc (rg_D_d (rd_geometry d)) ⊘ (n_lit 2 0 ⊗ disc (rg_D_p (rd_geometry d)))
    ⊕ disc (rg_D_d (rd_geometry d)) ⊗ r.
End Crank.
