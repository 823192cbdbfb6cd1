(** * Documents of the examples and tests, read as the [config] crate reads them *)
From Coq Require Import ZArith NArith List String Ascii Bool Permutation.
From Flocq Require Import IEEE754.BinarySingleNaN.
From Verif Require Import Num ModelTypes ModelWs ModelHx ModelStateEq ModelEngine ModelApi ModelSerde
  SpecSerde PolySerde PolyDoc B64 Fixture.
Import ListNotations.
Local Open Scope string_scope.

Section FileRun.
  Context {V F : Type} {ops : NumOps F}.

  Lemma number_at (r : Reader V F) d p d' q x :
    at_path d p = Some d' -> number r d' q x -> number r d (p ++ q)%list x.
  Proof. intros E (v & A & B). exists v. rewrite at_path_app, E. split; assumption. Qed.
  Lemma count_at (r : Reader V F) d p d' q x :
    at_path d p = Some d' -> count r d' q x -> count r d (p ++ q)%list x.
  Proof. intros E (v & A & B). exists v. rewrite at_path_app, E. split; assumption. Qed.

Ltac parts := unfold file_settings, file_inputs, legacy_file_settings, legacy_file_inputs;
  repeat match goal with |- _ /\ _ => split end.
Ltac at_in :=
  match goal with
  | Es : at_path ?d [?k] = Some ?ds, A : number ?r ?ds ?q ?x |- number ?r ?d (?k :: ?q) ?x => exact (number_at r d [k] ds q x Es A)
  | Es : at_path ?d [?k] = Some ?ds, A : count ?r ?ds ?q ?x |- count ?r ?d (?k :: ?q) ?x => exact (count_at r d [k] ds q x Es A)
  | |- _ => reflexivity
  end.

  Theorem file_run (r : Reader V F) d c :
    tells_names_apart r -> de_config r d = Some c ->
    file_settings r d (RunSettings_from (cf_solver c)) /\ file_inputs r d (RunInputs_from (cf_conditions c)).
  Proof.
    intros T H. apply (config_spelled r T) in H.
    destruct H as (_ & _ & _ & _ & _ & (ds & Es & H) & (dc & Ec & H')).
    destruct H as (A1 & A2 & A3 & A4 & A5 & A6 & A7 & A8 & A9). destruct H' as (B1 & B2 & B3).
    split.
    - parts; cbn; at_in.
    - parts; cbn; at_in.
  Qed.
  Theorem legacy_file_run (r b : Reader V F) d l :
    tells_names_apart r -> tells_names_apart b -> de_legacy r b d = Some l ->
    legacy_file_settings r d (RunSettings_from (cf_solver (Config_from_legacy l))) /\
    legacy_file_inputs r d (RunInputs_from (cf_conditions (Config_from_legacy l))).
  Proof.
    intros T T' H. apply (legacy_spelled r b T T') in H.
    destruct H as (_ & _ & _ & _ & _ & (ds & Es & H) & (dc & Ec & H')).
    destruct H as (A1 & A2 & A3 & A4 & A5 & A6 & A7 & A8). destruct H' as (B1 & B2 & B3).
    split.
    - parts; cbn; at_in.
    - parts; cbn; at_in.
  Qed.
End FileRun.

(** ** Scalars of the files, and how they are read

    The [config] crate (version 0.13.3) reads a float from a number or from a string
    like "inf", a count from a whole number, and compares variant names in lower
    case.  serde's buffer, which holds "params" when they come before "model", reads
    floats from numbers only and compares names as they are.  Neither crate is
    available here: these two readers follow their documentation and are used for
    the cases only, the theorems hold for all readers. *)
Inductive scalar := SNum (m e : Z) | SInf | SText (s : string).

Fixpoint lower_case (s : string) : string :=
  match s with "" => "" | String c s' => String (lower c) (lower_case s') end.
Definition unit_name (d : doc scalar) : option string :=
  match d with Leaf (SText s) => Some s | Table [(k, _)] => Some k | _ => None end.
Definition whole (v : scalar) : option N :=
  match v with SNum m 0 => if (0 <=? m)%Z then Some (Z.to_N m) else None | _ => None end.
Definition content (v : scalar) : option string := match v with SText s => Some s | _ => None end.

Section Readers.
  Context {F : Type} {ops : NumOps F}.
  Definition config_reader : Reader scalar F :=
    {| rd_f64 := fun v => match v with
                          | SNum m e => Some (n_lit m e)
                          | SInf => Some n_inf
                          | SText s => if String.eqb s "inf" then Some n_inf else None
                          end;
       rd_u32 := whole; rd_str := content; rd_nil := fun _ => false; rd_unit := unit_name; rd_fold := lower_case |}.
  Definition buffer_reader : Reader scalar F :=
    {| rd_f64 := fun v => match v with SNum m e => Some (n_lit m e) | SInf => Some n_inf | SText _ => None end;
       rd_u32 := whole; rd_str := content; rd_nil := fun _ => false; rd_unit := unit_name; rd_fold := fun s => s |}.
End Readers.

Ltac apart :=
  let n := fresh in let m := fresh in let A := fresh in let B := fresh in let E := fresh in
  intros n m A B E; simpl in A, B;
  repeat (destruct A as [<- | A]; [repeat (destruct B as [<- | B]; [first [reflexivity | discriminate E] |]); contradiction |]);
  contradiction.
Lemma exact_names {V F} (r : Reader V F) : (forall s, rd_fold r s = s) -> tells_names_apart r.
Proof. intros H. repeat split; intros n m _ _ E; rewrite !H in E; exact E. Qed.
Lemma lower_names {V F} (r : Reader V F) : (forall s, rd_fold r s = lower_case s) -> tells_names_apart r.
Proof.
  intros H. repeat split; intros n m A B E; rewrite !H in E; revert n m A B E; apart.
Qed.
Lemma config_reader_names {F} {ops : NumOps F} : tells_names_apart (config_reader (F := F)).
Proof. apply lower_names. reflexivity. Qed.
Lemma buffer_reader_names {F} {ops : NumOps F} : tells_names_apart (buffer_reader (F := F)).
Proof. apply exact_names. reflexivity. Qed.
Lemma unit_name_unordered (d d' : doc scalar) : reordered d d' -> unit_name d = unit_name d'.
Proof.
  intros [v | l l' l'' S P]; [reflexivity |].
  pose proof (single_same _ _ _ S P) as E.
  destruct l as [| [k1 d1] [| ? ?]], l'' as [| [k2 d2] [| ? ?]]; try reflexivity; try contradiction.
  simpl. f_equal. exact (proj1 E).
Qed.

(** ** src/config.rs:82-128, the document of test [deserialize_config] *)
Definition test_document : doc scalar :=
  Table
  [("engine", Table
    [("fluid", Table [("hydrogen", Table [("model", Leaf (SText "ideal_gas"))])]);
     ("components", Table
      [("chx", Table
        [("fixed_approach", Table
          [("vol", Leaf (SNum 4 (-5)));
           ("DT", Leaf (SNum 40 0));
           ("R_hyd", Leaf (SNum 0 0));
           ("W_parasitic", Leaf (SNum 0 0))])]);
       ("hhx", Table
        [("fixed_approach", Table
          [("vol", Leaf (SNum 1 (-4)));
           ("DT", Leaf (SNum 100 0));
           ("R_hyd", Leaf (SNum 0 0));
           ("W_parasitic", Leaf (SNum 0 0));
           ("Q_parasitic", Leaf (SNum 0 0))])]);
       ("regen", Table
        [("fixed_approach", Table
          [("vol", Leaf (SNum 1 (-4)));
           ("DT", Leaf (SNum 10 0));
           ("R_hyd", Leaf (SNum 0 0));
           ("Q_parasitic", Leaf (SNum 0 0))])]);
       ("ws", Table
        [("sinusoidal", Table
          [("frequency", Leaf (SNum 666667 (-4)));
           ("phase_angle", Leaf (SNum 90 0));
           ("V_swept_c", Leaf (SNum 1128 (-7)));
           ("V_clearance_c", Leaf (SNum 468 (-7)));
           ("R_c", Leaf SInf);
           ("W_parasitic_c", Leaf (SNum 0 0));
           ("V_swept_e", Leaf (SNum 1128 (-7)));
           ("V_clearance_e", Leaf (SNum 168 (-7)));
           ("R_e", Leaf SInf);
           ("W_parasitic_e", Leaf (SNum 0 0));
           ("Q_parasitic_e", Leaf (SNum 0 0))])])])]);
   ("solver", Table
    [("inner_loop", Table
      [("tolerance", Table [("abs", Leaf (SNum 1 (-6))); ("rel", Leaf (SNum 1 (-6)))]);
       ("max_iterations", Leaf (SNum 10 0))]);
     ("outer_loop", Table
      [("tolerance", Table [("abs", Leaf (SNum 1 (-8))); ("rel", Leaf (SNum 1 (-8)))]);
       ("max_iterations", Leaf (SNum 10 0))]);
     ("ode", Table
      [("tolerance", Table [("abs", Leaf (SNum 1 (-8))); ("rel", Leaf (SNum 1 (-8)))]);
       ("num_timesteps", Leaf (SNum 20 0))])]);
   ("conditions", Table
    [("temp_sink", Leaf (SNum 20 0));
     ("temp_source", Leaf (SNum 50 0));
     ("pres_zero", Leaf (SNum 100 0))])].
(** ** src/config.rs:178-247, the document of test [deserialize_legacy_config] *)
Definition test_legacy_document : doc scalar :=
  Table
  [("fluid", Table
    [("model", Leaf (SText "IdealGas"));
     ("params", Table [("name", Leaf (SText "Hydrogen"))])]);
   ("ws", Table
    [("model", Leaf (SText "Sinusoidal"));
     ("params", Table
      [("frequency", Leaf (SNum 666667 (-4)));
       ("phase_angle", Leaf (SNum 90 0));
       ("V_swept_c", Leaf (SNum 1128 (-7)));
       ("V_clearance_c", Leaf (SNum 468 (-7)));
       ("R_c", Leaf (SNum 1 300));
       ("W_parasitic_c", Leaf (SNum 0 0));
       ("V_swept_e", Leaf (SNum 1128 (-7)));
       ("V_clearance_e", Leaf (SNum 168 (-7)));
       ("R_e", Leaf (SNum 1 300));
       ("W_parasitic_e", Leaf (SNum 0 0));
       ("Q_parasitic_e", Leaf (SNum 0 0))])]);
   ("chx", Table
    [("model", Leaf (SText "FixedApproach"));
     ("params", Table
      [("vol", Leaf (SNum 4 (-5)));
       ("DT", Leaf (SNum 40 0));
       ("R_hyd", Leaf (SNum 0 0));
       ("W_parasitic", Leaf (SNum 0 0))])]);
   ("regen", Table
    [("model", Leaf (SText "FixedApproach"));
     ("params", Table
      [("vol", Leaf (SNum 1 (-4)));
       ("DT", Leaf (SNum 10 0));
       ("R_hyd", Leaf (SNum 0 0));
       ("Q_parasitic", Leaf (SNum 0 0))])]);
   ("hhx", Table
    [("model", Leaf (SText "FixedApproach"));
     ("params", Table
      [("vol", Leaf (SNum 1 (-4)));
       ("DT", Leaf (SNum 100 0));
       ("R_hyd", Leaf (SNum 0 0));
       ("W_parasitic", Leaf (SNum 0 0));
       ("Q_parasitic", Leaf (SNum 0 0))])]);
   ("solver", Table
    [("innerLoopTolerance", Table [("abs", Leaf (SNum 1 (-6))); ("rel", Leaf (SNum 1 (-6)))]);
     ("odeSolver", Leaf (SText "ode45"));
     ("odeTolerance", Table [("abs", Leaf (SNum 1 (-8))); ("rel", Leaf (SNum 1 (-8)))]);
     ("outerLoopTolerance", Table [("abs", Leaf (SNum 1 (-8))); ("rel", Leaf (SNum 1 (-8)))]);
     ("timeResolution", Leaf (SNum 20 0))]);
   ("conditions", Table [("T_cold", Leaf (SNum 20 0)); ("T_hot", Leaf (SNum 50 0)); ("P_0", Leaf (SNum 100 0))])].
(** ** examples/run_from_config.rs:4-52 *)
Definition example_document : doc scalar :=
  Table
  [("engine", Table
    [("fluid", Table [("hydrogen", Table [("model", Leaf (SText "ideal_gas"))])]);
     ("components", Table
      [("chx", Table
        [("fixed_approach", Table
          [("vol", Leaf (SNum 4 (-5)));
           ("DT", Leaf (SNum 40 0));
           ("R_hyd", Leaf (SNum 0 0));
           ("W_parasitic", Leaf (SNum 0 0))])]);
       ("hhx", Table
        [("fixed_approach", Table
          [("vol", Leaf (SNum 1 (-4)));
           ("DT", Leaf (SNum 100 0));
           ("R_hyd", Leaf (SNum 0 0));
           ("W_parasitic", Leaf (SNum 0 0));
           ("Q_parasitic", Leaf (SNum 0 0))])]);
       ("regen", Table
        [("fixed_approach", Table
          [("vol", Leaf (SNum 1 (-4)));
           ("DT", Leaf (SNum 10 0));
           ("R_hyd", Leaf (SNum 0 0));
           ("Q_parasitic", Leaf (SNum 0 0))])]);
       ("ws", Table
        [("sinusoidal", Table
          [("frequency", Leaf (SNum 70 0));
           ("phase_angle", Leaf (SNum 90 0));
           ("V_swept_c", Leaf (SNum 5 (-4)));
           ("V_clearance_c", Leaf (SNum 2 (-5)));
           ("R_c", Leaf SInf);
           ("W_parasitic_c", Leaf (SNum 0 0));
           ("V_swept_e", Leaf (SNum 5 (-4)));
           ("V_clearance_e", Leaf (SNum 2 (-5)));
           ("R_e", Leaf SInf);
           ("W_parasitic_e", Leaf (SNum 0 0));
           ("Q_parasitic_e", Leaf (SNum 0 0))])])])]);
   ("solver", Table
    [("inner_loop", Table
      [("tolerance", Table [("abs", Leaf (SNum 1 (-2))); ("rel", Leaf (SNum 1 (-4)))]);
       ("max_iterations", Leaf (SNum 20 0))]);
     ("outer_loop", Table
      [("tolerance", Table [("abs", Leaf (SNum 1 (-2))); ("rel", Leaf (SNum 1 (-4)))]);
       ("max_iterations", Leaf (SNum 20 0))]);
     ("ode", Table
      [("tolerance", Table [("abs", Leaf (SNum 1 (-6))); ("rel", Leaf (SNum 1 (-6)))]);
       ("num_timesteps", Leaf (SNum 30 0))])]);
   ("conditions", Table
    [("temp_sink", Leaf (SNum 300 0));
     ("temp_source", Leaf (SNum 500 0));
     ("pres_zero", Leaf (SNum 10 6))])].
(** ** examples/run_from_legacy_config.rs:4-75 *)
Definition example_legacy_document : doc scalar :=
  Table
  [("fluid", Table
    [("model", Leaf (SText "IdealGas"));
     ("params", Table [("name", Leaf (SText "Hydrogen"))])]);
   ("ws", Table
    [("model", Leaf (SText "Sinusoidal"));
     ("params", Table
      [("frequency", Leaf (SNum 70 0));
       ("phase_angle", Leaf (SNum 90 0));
       ("V_swept_c", Leaf (SNum 5 (-4)));
       ("V_clearance_c", Leaf (SNum 2 (-5)));
       ("R_c", Leaf (SText "inf"));
       ("W_parasitic_c", Leaf (SNum 0 0));
       ("V_swept_e", Leaf (SNum 5 (-4)));
       ("V_clearance_e", Leaf (SNum 2 (-5)));
       ("R_e", Leaf (SText "inf"));
       ("W_parasitic_e", Leaf (SNum 0 0));
       ("Q_parasitic_e", Leaf (SNum 0 0))])]);
   ("chx", Table
    [("model", Leaf (SText "FixedApproach"));
     ("params", Table
      [("vol", Leaf (SNum 4 (-5)));
       ("DT", Leaf (SNum 40 0));
       ("R_hyd", Leaf (SNum 0 0));
       ("W_parasitic", Leaf (SNum 0 0))])]);
   ("regen", Table
    [("model", Leaf (SText "FixedApproach"));
     ("params", Table
      [("vol", Leaf (SNum 1 (-4)));
       ("DT", Leaf (SNum 10 0));
       ("R_hyd", Leaf (SNum 0 0));
       ("Q_parasitic", Leaf (SNum 0 0))])]);
   ("hhx", Table
    [("model", Leaf (SText "FixedApproach"));
     ("params", Table
      [("vol", Leaf (SNum 1 (-4)));
       ("DT", Leaf (SNum 100 0));
       ("R_hyd", Leaf (SNum 0 0));
       ("W_parasitic", Leaf (SNum 0 0));
       ("Q_parasitic", Leaf (SNum 0 0))])]);
   ("solver", Table
    [("innerLoopTolerance", Table [("abs", Leaf (SNum 1 (-2))); ("rel", Leaf (SNum 1 (-4)))]);
     ("odeSolver", Leaf (SText "ode45"));
     ("odeTolerance", Table [("abs", Leaf (SNum 1 (-6))); ("rel", Leaf (SNum 1 (-6)))]);
     ("outerLoopTolerance", Table [("abs", Leaf (SNum 1 (-4))); ("rel", Leaf (SNum 1 (-4)))]);
     ("timeResolution", Leaf (SNum 30 0))]);
   ("conditions", Table [("T_cold", Leaf (SNum 300 0)); ("T_hot", Leaf (SNum 500 0)); ("P_0", Leaf (SNum 10 6))])].
(** the same with "model" and "params" of the working spaces exchanged *)
Definition exchanged_legacy_document : doc scalar :=
  Table
  [("fluid", Table
    [("model", Leaf (SText "IdealGas"));
     ("params", Table [("name", Leaf (SText "Hydrogen"))])]);
   ("ws", Table
    [("params", Table
      [("frequency", Leaf (SNum 70 0));
       ("phase_angle", Leaf (SNum 90 0));
       ("V_swept_c", Leaf (SNum 5 (-4)));
       ("V_clearance_c", Leaf (SNum 2 (-5)));
       ("R_c", Leaf (SText "inf"));
       ("W_parasitic_c", Leaf (SNum 0 0));
       ("V_swept_e", Leaf (SNum 5 (-4)));
       ("V_clearance_e", Leaf (SNum 2 (-5)));
       ("R_e", Leaf (SText "inf"));
       ("W_parasitic_e", Leaf (SNum 0 0));
       ("Q_parasitic_e", Leaf (SNum 0 0))]);
     ("model", Leaf (SText "Sinusoidal"))]);
   ("chx", Table
    [("model", Leaf (SText "FixedApproach"));
     ("params", Table
      [("vol", Leaf (SNum 4 (-5)));
       ("DT", Leaf (SNum 40 0));
       ("R_hyd", Leaf (SNum 0 0));
       ("W_parasitic", Leaf (SNum 0 0))])]);
   ("regen", Table
    [("model", Leaf (SText "FixedApproach"));
     ("params", Table
      [("vol", Leaf (SNum 1 (-4)));
       ("DT", Leaf (SNum 10 0));
       ("R_hyd", Leaf (SNum 0 0));
       ("Q_parasitic", Leaf (SNum 0 0))])]);
   ("hhx", Table
    [("model", Leaf (SText "FixedApproach"));
     ("params", Table
      [("vol", Leaf (SNum 1 (-4)));
       ("DT", Leaf (SNum 100 0));
       ("R_hyd", Leaf (SNum 0 0));
       ("W_parasitic", Leaf (SNum 0 0));
       ("Q_parasitic", Leaf (SNum 0 0))])]);
   ("solver", Table
    [("innerLoopTolerance", Table [("abs", Leaf (SNum 1 (-2))); ("rel", Leaf (SNum 1 (-4)))]);
     ("odeSolver", Leaf (SText "ode45"));
     ("odeTolerance", Table [("abs", Leaf (SNum 1 (-6))); ("rel", Leaf (SNum 1 (-6)))]);
     ("outerLoopTolerance", Table [("abs", Leaf (SNum 1 (-4))); ("rel", Leaf (SNum 1 (-4)))]);
     ("timeResolution", Leaf (SNum 30 0))]);
   ("conditions", Table [("T_cold", Leaf (SNum 300 0)); ("T_hot", Leaf (SNum 500 0)); ("P_0", Leaf (SNum 10 6))])].

(** *** What the tests expect, src/config.rs:129-170 and 248-290 *)
Definition tol {F} {ops : NumOps F} (e : Z) : ToleranceConfig F := mkTolCfg (n_lit 1 e) (n_lit 1 e).
Definition test_expected {F} {ops : NumOps F} (ws : SinConfig F) (iters : N) : Config F :=
  {| cf_engine :=
       {| ec_fluid := FC_Hydrogen FM_IdealGas;
          ec_components :=
            {| ccf_chx := CC_FixedApproach ChxFAConfig_default;
               ccf_hhx := HC_FixedApproach HhxFAConfig_default;
               ccf_regen := RC_FixedApproach RegenFAConfig_default;
               ccf_ws := WC_Sinusoidal ws |} |};
     cf_solver :=
       {| sc_inner_loop := mkInnerCfg (tol (-6)) iters;
          sc_outer_loop := mkOuterCfg (tol (-8)) iters;
          sc_ode := mkOdeCfg (tol (-8)) 20 |};
     cf_conditions := mkCondCfg (n_lit 20 0) (n_lit 50 0) (n_lit 100 0) |}.
Definition with_resistances {F} (c : SinConfig F) (r : F) : SinConfig F :=
  {| sdc_frequency := sdc_frequency c; sdc_phase_angle := sdc_phase_angle c;
     sdc_V_swept_c := sdc_V_swept_c c; sdc_V_clearance_c := sdc_V_clearance_c c;
     sdc_R_c := r; sdc_W_parasitic_c := sdc_W_parasitic_c c;
     sdc_V_swept_e := sdc_V_swept_e c; sdc_V_clearance_e := sdc_V_clearance_e c;
     sdc_R_e := r; sdc_W_parasitic_e := sdc_W_parasitic_e c; sdc_Q_parasitic_e := sdc_Q_parasitic_e c |}.

(** 4e-5 and 40e-6, 1e-4 and 10e-5 are the same f64 *)
Lemma lit_vol_c : (n_lit 4 (-5) : b64) = n_lit 40 (-6).
Proof. apply B2SF_inj. vm_compute. reflexivity. Qed.
Lemma lit_vol_h : (n_lit 1 (-4) : b64) = n_lit 10 (-5).
Proof. apply B2SF_inj. vm_compute. reflexivity. Qed.

Theorem test_deserialize : de_config config_reader test_document = Some (test_expected (SinConfig_default : SinConfig b64) 10).
Proof.
  unfold test_expected, ChxFAConfig_default, HhxFAConfig_default. rewrite <- lit_vol_c, <- lit_vol_h. reflexivity.
Qed.
Theorem test_deserialize_legacy :
  option_map Config_from_legacy (de_legacy config_reader buffer_reader test_legacy_document) =
  Some (test_expected (with_resistances SinConfig_default (n_lit 1 300 : b64)) 20).
Proof.
  unfold test_expected, ChxFAConfig_default, HhxFAConfig_default. rewrite <- lit_vol_c, <- lit_vol_h. reflexivity.
Qed.

(** the two documents of the examples ask for the same engine and conditions; their
    solver settings differ in the absolute outer tolerance *)
Theorem examples_agree {F} {ops : NumOps F} : exists c l,
  de_config config_reader example_document = Some c /\
  de_legacy config_reader buffer_reader example_legacy_document = Some l /\
  cf_engine (Config_from_legacy l) = cf_engine c /\
  cf_conditions (Config_from_legacy l) = cf_conditions c /\
  sc_inner_loop (cf_solver (Config_from_legacy l)) = sc_inner_loop (cf_solver c) /\
  sc_ode (cf_solver (Config_from_legacy l)) = sc_ode (cf_solver c) /\
  tc_abs (olc_tolerance (sc_outer_loop (cf_solver (Config_from_legacy l)))) = n_lit 1 (-4) /\
  tc_abs (olc_tolerance (sc_outer_loop (cf_solver c))) = n_lit 1 (-2).
Proof. eexists; eexists. split; [reflexivity |]. split; [reflexivity |]. repeat split. Qed.

(** with "params" first the legacy example does not load *)
Lemma reordered_refl {V} (d : doc V) : reordered d d.
Proof.
  revert d. fix IH 1. intros [v | l]; [constructor |].
  apply (reordered_table l l l); [| apply Permutation_refl].
  induction l as [| [k d] l IHl]; constructor; [split; [reflexivity | exact (IH d)] | exact IHl].
Qed.
Lemma exchanged_reordered : reordered example_legacy_document exchanged_legacy_document.
Proof.
  eapply reordered_table; [| apply Permutation_refl].
  repeat (apply Forall2_cons || apply Forall2_nil); (split; [reflexivity |]); try apply reordered_refl.
  eapply reordered_table; [| apply perm_swap].
  repeat (apply Forall2_cons || apply Forall2_nil); (split; [reflexivity |]); apply reordered_refl.
Qed.
Theorem legacy_order_matters {F} {ops : NumOps F} : exists d d' l,
  reordered d d' /\ de_legacy (config_reader (F := F)) buffer_reader d = Some l /\
  de_legacy (config_reader (F := F)) buffer_reader d' = None.
Proof.
  exists example_legacy_document, exchanged_legacy_document. eexists.
  split; [exact exchanged_reordered |]. split; reflexivity.
Qed.

(** the names of the variants with several capital letters *)
Theorem variant_names :
  snake_case "GPU3" = "g_p_u3" /\ snake_case "GPU3NI" = "g_p_u3_n_i" /\ snake_case "Mod2NI" = "mod2_n_i".
Proof. repeat split. Qed.
Lemma pick_ext {A} (f g : string -> string) (H : forall s, f s = g s) (cases : list (string * A)) s :
  ModelSerde.pick f cases s = ModelSerde.pick g cases s.
Proof. induction cases as [| [n a] cases IH]; simpl; [reflexivity |]. rewrite !H, IH. reflexivity. Qed.
(** a document that names the variant "gpu3" is not read *)
Theorem gpu3_refuted {V F} (r : Reader V F) :
  (forall s, rd_fold r s = lower_case s) ->
  forall d, de_chx r (Table [("gpu3", d)]) = None /\ de_chx r (Table [("GPU3", d)]) = None /\
    de_regen r (Table [("gpu3", d)]) = None /\ de_hhx r (Table [("gpu3", d)]) = None /\
    de_hhx r (Table [("gpu3ni", d)]) = None /\ de_ws r (Table [("gpu3", d)]) = None.
Proof.
  intros H d. unfold de_chx, de_regen, de_hhx, de_ws, de_external.
  rewrite !(pick_ext (rd_fold r) lower_case H). repeat split.
Qed.
