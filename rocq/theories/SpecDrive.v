(** * Specification in exact arithmetic: volumes a drive configuration describes *)
From Coq Require Import ZArith NArith List Reals.
From Verif Require Import Num ModelTypes ModelWs RNum SpecGas SpecKin.
Local Open Scope R_scope.

(** A space with clearance [clear] and swept volume [swept], full at angle 0 *)
Definition swept_space (clear swept angle : R) : R := clear + swept * (1 + cos angle) / 2.
Definition turn_angle (f t : R) : R := 2 * PI * f * t.

(** The rhombic linkage at crank angle [theta].  The crank turns with radius [r]
    about the point (e, 0); rods of length [L] join its pin to two yokes that
    slide on the vertical axis, one above the pin at height [above], one below
    it at height [below]. *)
Definition linkage (e r L theta above below : R) : Prop :=
  let x := e + r * cos theta in
  let y := r * sin theta in
  x * x + (above - y) * (above - y) = L * L /\ x * x + (below - y) * (below - y) = L * L /\
  below < y < above.

Definition disc (D : R) : R := PI * (D * D) / 4.

(** The compression space lies between piston and displacer, which move with
    the yokes: its clearance is left when the crank is turned inwards (with a crank
    no longer than the eccentricity the yokes are then furthest apart).  The expansion
    space lies beyond the displacer: it is smallest when the lower yoke is at
    its highest. *)
Definition linked_volumes (c : RhConfig R) (D_d : R) (vol : R -> Volume R * Volume R) (t : R) : Prop :=
  let e := rdc_eccentricity c in let r := rdc_r_crank c in let L := rdc_L_conn c in
  exists above below above' below' highest,
    linkage e r L (turn_angle (rdc_frequency c) t) above below /\
    (** yokes with the crank turned inwards *)
    linkage e r L PI above' below' /\
    (** crank and lower rod in one line *)
    highest <= 0 /\ e * e + highest * highest = (L - r) * (L - r) /\
    v_value (fst (vol t)) = rdc_V_clearance_c c + disc (rdc_D_p c) * ((above' - below') - (above - below)) /\
    v_value (snd (vol t)) = rdc_V_clearance_e c + disc D_d * (highest - below).
