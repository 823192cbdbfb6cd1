(** * Specification: components that cannot be told apart by a run *)
From Coq Require Import ZArith NArith List.
From Verif Require Import Num ModelTypes ModelWs ModelHx ModelStateEq ModelEngine.

Section SpecInfl.
  Context {F : Type}.

  (** exchangers that agree on volume and approach, with any hydraulic
      resistances and parasitic powers *)
  Definition same_duty {S : Type} (a b : Exchanger F S) : Prop :=
    ex_volume a = ex_volume b /\ ex_initial_approach a = ex_initial_approach b /\
    forall s, ex_approach a s = ex_approach b s.

  (** both fail alike, or both give parasitics with the same thermal powers *)
  Definition same_thermal (a b : outcome (Parasitics F)) : Prop :=
    match a, b with
    | Ret p, Ret q => pp_thermal (par_comp p) = pp_thermal (par_comp q) /\
                      pp_thermal (par_exp p) = pp_thermal (par_exp q)
    | Panic r, Panic r' => r = r'
    | _, _ => False
    end.
  (** working spaces that agree on everything but mechanical and electrical parasitics *)
  Definition same_motion (a b : WorkingSpaces F) : Prop :=
    forall s, ws_frequency a s = ws_frequency b s /\ ws_volumes a s = ws_volumes b s /\
      ws_thermal_resistance a s = ws_thermal_resistance b s /\
      same_thermal (ws_parasitics a s) (ws_parasitics b s).

  Definition same_duties (a b : Components F) : Prop :=
    same_motion (co_ws a) (co_ws b) /\ same_duty (co_chx a) (co_chx b) /\
    same_duty (co_regen a) (co_regen b) /\ same_duty (co_hhx a) (co_hhx b).

  (** the outcomes of two runs differ at most in the components kept in the engine *)
  Definition same_run (a b : outcome (result (Engine F) RunError)) : Prop :=
    match a, b with
    | Ret (Ok e), Ret (Ok e') => en_state e = en_state e' /\ en_values e = en_values e'
    | Ret (Err x), Ret (Err y) => x = y
    | Panic r, Panic r' => r = r'
    | _, _ => False
    end.
End SpecInfl.
