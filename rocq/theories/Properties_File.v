(** * C73-C75: configuration files *)
From Coq Require Import ZArith NArith List String.
From Verif Require Import Num ModelTypes ModelWs ModelHx ModelStateEq ModelEngine ModelApi ModelSerde
  SpecSerde PolySerde PolyDoc SerdeDocs B64 Fixture.
Import ListNotations.
Local Open Scope string_scope.

(** C73: a configuration is read from a document if and only if the document spells it *)
Theorem C73_spelled (V F : Type) (r : Reader V F) (d : doc V) (c : Config F) :
  tells_names_apart r -> (de_config r d = Some c <-> spells r d c).
Proof. exact (fun T => config_spelled r T d c). Qed.
Print Assumptions C73_spelled.

(** and the run's settings and inputs are the numbers of the document *)
Theorem C73_run (V F : Type) (ops : NumOps F) (r : Reader V F) (d : doc V) (c : Config F) :
  tells_names_apart r -> de_config r d = Some c ->
  file_settings r d (RunSettings_from (cf_solver c)) /\ file_inputs r d (RunInputs_from (cf_conditions c)).
Proof. exact (file_run r d c). Qed.
Print Assumptions C73_run.

(** readers that compare names as they are, or in lower case, tell them apart *)
Theorem C73_names (V F : Type) (r : Reader V F) :
  (forall s, rd_fold r s = s) \/ (forall s, rd_fold r s = lower_case s) -> tells_names_apart r.
Proof. exact (fun H => match H with or_introl E => exact_names r E | or_intror E => lower_names r E end). Qed.
Print Assumptions C73_names.

(** an entry no field has the name of is ignored (inside structs this is part of C73_spelled) *)
Theorem C73_extra (V F : Type) (r : Reader V F) (l1 l2 : list (string * doc V)) (k : string) (x : doc V) :
  k <> "engine" -> k <> "solver" -> k <> "conditions" ->
  de_config r (Table (l1 ++ (k, x) :: l2)%list) = de_config r (Table (l1 ++ l2)%list).
Proof. exact (config_extra r l1 l2 k x). Qed.
Print Assumptions C73_extra.

(** finding: the name of the GPU-3 components in a file is not "gpu3" *)
Theorem C73_gpu3_refuted (V F : Type) (r : Reader V F) :
  (forall s, rd_fold r s = lower_case s) ->
  forall d, de_chx r (Table [("gpu3", d)]) = None /\ de_chx r (Table [("GPU3", d)]) = None /\
    de_regen r (Table [("gpu3", d)]) = None /\ de_hhx r (Table [("gpu3", d)]) = None /\
    de_hhx r (Table [("gpu3ni", d)]) = None /\ de_ws r (Table [("gpu3", d)]) = None.
Proof. exact (gpu3_refuted r). Qed.
Print Assumptions C73_gpu3_refuted.

(** the document of test deserialize_config in src/config.rs gives what the test expects *)
Example C73_case :
  tells_names_apart (config_reader : Reader scalar b64) /\
  de_config config_reader test_document = Some (test_expected (SinConfig_default : SinConfig b64) 10).
Proof. exact (conj config_reader_names test_deserialize). Qed.

(** C74: the same for legacy documents *)
Theorem C74_spelled (V F : Type) (direct buffered : Reader V F) (d : doc V) (l : Legacy F) :
  tells_names_apart direct -> tells_names_apart buffered ->
  (de_legacy direct buffered d = Some l <-> spells_legacy direct buffered d l).
Proof. exact (fun T T' => legacy_spelled direct buffered T T' d l). Qed.
Print Assumptions C74_spelled.

Theorem C74_run (V F : Type) (ops : NumOps F) (direct buffered : Reader V F) (d : doc V) (l : Legacy F) :
  tells_names_apart direct -> tells_names_apart buffered -> de_legacy direct buffered d = Some l ->
  legacy_file_settings direct d (RunSettings_from (cf_solver (Config_from_legacy l))) /\
  legacy_file_inputs direct d (RunInputs_from (cf_conditions (Config_from_legacy l))).
Proof. exact (legacy_file_run direct buffered d l). Qed.
Print Assumptions C74_run.

(** the document of test deserialize_legacy_config *)
Example C74_case :
  tells_names_apart (config_reader : Reader scalar b64) /\ tells_names_apart (buffer_reader : Reader scalar b64) /\
  option_map Config_from_legacy (de_legacy config_reader buffer_reader test_legacy_document) =
  Some (test_expected (with_resistances SinConfig_default (n_lit 1 300 : b64)) 20).
Proof. exact (conj config_reader_names (conj buffer_reader_names test_deserialize_legacy)). Qed.
(** the documents of the two examples *)
Example C74_examples (F : Type) (ops : NumOps F) : exists c l,
  de_config config_reader example_document = Some c /\
  de_legacy config_reader buffer_reader example_legacy_document = Some l /\
  cf_engine (Config_from_legacy l) = cf_engine c /\
  cf_conditions (Config_from_legacy l) = cf_conditions c /\
  sc_inner_loop (cf_solver (Config_from_legacy l)) = sc_inner_loop (cf_solver c) /\
  sc_ode (cf_solver (Config_from_legacy l)) = sc_ode (cf_solver c) /\
  tc_abs (olc_tolerance (sc_outer_loop (cf_solver (Config_from_legacy l)))) = n_lit 1 (-4) /\
  tc_abs (olc_tolerance (sc_outer_loop (cf_solver c))) = n_lit 1 (-2).
Proof. exact examples_agree. Qed.

(** C75: the order of entries *)
Theorem C75_order (V F : Type) (r : Reader V F) (d d' : doc V) :
  unit_unordered r -> reordered d d' -> de_config r d = de_config r d'.
Proof. exact (fun U => config_unordered r U d d'). Qed.
Print Assumptions C75_order.

Theorem C75_legacy_order (V F : Type) (r : Reader V F) (d d' : doc V) :
  unit_unordered r -> reordered d d' -> de_legacy r r d = de_legacy r r d'.
Proof. exact (fun U => legacy_unordered r U d d'). Qed.
Print Assumptions C75_legacy_order.

(** finding: legacy documents depend on it if scalars in serde's buffer are read
    differently; the witness is the document of examples/run_from_legacy_config.rs *)
Theorem C75_legacy_order_refuted (F : Type) (ops : NumOps F) : exists d d' l,
  reordered d d' /\ de_legacy (config_reader (F := F)) buffer_reader d = Some l /\
  de_legacy (config_reader (F := F)) buffer_reader d' = None.
Proof. exact legacy_order_matters. Qed.
Print Assumptions C75_legacy_order_refuted.

Example C75_case (F : Type) (ops : NumOps F) :
  unit_unordered (config_reader (F := F)) /\ reordered example_legacy_document exchanged_legacy_document.
Proof. exact (conj unit_name_unordered exchanged_reordered). Qed.
