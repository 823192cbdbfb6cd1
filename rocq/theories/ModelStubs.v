(** * Model of the unfinished components

    Every method of these public, field-less structs is [todo!()]; they can be
    put into [Components] without a configuration. *)
From Verif Require Import Num ModelTypes ModelWs ModelHx.

Section Stubs.
  Context {F : Type}.

  (** src/ws/gpu3.rs:24-40 *)
  Definition ws_GPU3 : WorkingSpaces F :=
    {| ws_frequency := fun _ => Panic PTodo; ws_volumes := fun _ => Panic PTodo;
       ws_thermal_resistance := fun _ => Panic PTodo; ws_parasitics := fun _ => Panic PTodo |}.
  (** src/ws/mod2.rs:30-46 *)
  Definition ws_Mod2 : WorkingSpaces F :=
    {| ws_frequency := fun _ => Panic PTodo; ws_volumes := fun _ => Panic PTodo;
       ws_thermal_resistance := fun _ => Panic PTodo; ws_parasitics := fun _ => Panic PTodo |}.

  (** src/chx/gpu3.rs:35-55 *)
  Definition chx_GPU3 : ColdHeatExchanger F :=
    {| ex_volume := Panic PTodo; ex_approach := fun _ => Panic PTodo;
       ex_hydraulic_resistance := fun _ => Panic PTodo; ex_parasitics := fun _ => Panic PTodo;
       ex_initial_approach := Panic PTodo |}.
  (** src/chx/mod2.rs:59-79 *)
  Definition chx_Mod2 : ColdHeatExchanger F :=
    {| ex_volume := Panic PTodo; ex_approach := fun _ => Panic PTodo;
       ex_hydraulic_resistance := fun _ => Panic PTodo; ex_parasitics := fun _ => Panic PTodo;
       ex_initial_approach := Panic PTodo |}.

  (** src/regen/gpu3.rs:45-65 *)
  Definition regen_GPU3 : Regenerator F :=
    {| ex_volume := Panic PTodo; ex_approach := fun _ => Panic PTodo;
       ex_hydraulic_resistance := fun _ => Panic PTodo; ex_parasitics := fun _ => Panic PTodo;
       ex_initial_approach := Panic PTodo |}.
  (** src/regen/mod2.rs:51-71 *)
  Definition regen_Mod2 : Regenerator F :=
    {| ex_volume := Panic PTodo; ex_approach := fun _ => Panic PTodo;
       ex_hydraulic_resistance := fun _ => Panic PTodo; ex_parasitics := fun _ => Panic PTodo;
       ex_initial_approach := Panic PTodo |}.

  (** src/hhx/gpu3.rs:25-45 *)
  Definition hhx_GPU3 : HotHeatExchanger F :=
    {| ex_volume := Panic PTodo; ex_approach := fun _ => Panic PTodo;
       ex_hydraulic_resistance := fun _ => Panic PTodo; ex_parasitics := fun _ => Panic PTodo;
       ex_initial_approach := Panic PTodo |}.
  (** src/hhx/mod2.rs:61-80 *)
  Definition hhx_Mod2 : HotHeatExchanger F :=
    {| ex_volume := Panic PTodo; ex_approach := fun _ => Panic PTodo;
       ex_hydraulic_resistance := fun _ => Panic PTodo; ex_parasitics := fun _ => Panic PTodo;
       ex_initial_approach := Panic PTodo |}.
  (** src/hhx/ni_gpu3.rs:25-45 *)
  Definition hhx_NuclearIsomerGPU3 : HotHeatExchanger F :=
    {| ex_volume := Panic PTodo; ex_approach := fun _ => Panic PTodo;
       ex_hydraulic_resistance := fun _ => Panic PTodo; ex_parasitics := fun _ => Panic PTodo;
       ex_initial_approach := Panic PTodo |}.
  (** src/hhx/ni_mod2.rs:25-45 *)
  Definition hhx_NuclearIsomerMod2 : HotHeatExchanger F :=
    {| ex_volume := Panic PTodo; ex_approach := fun _ => Panic PTodo;
       ex_hydraulic_resistance := fun _ => Panic PTodo; ex_parasitics := fun _ => Panic PTodo;
       ex_initial_approach := Panic PTodo |}.
End Stubs.
