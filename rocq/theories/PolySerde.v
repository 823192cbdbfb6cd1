(** * Decoding a configuration document gives what the document spells *)
From Coq Require Import ZArith NArith List String Bool.
From Verif Require Import Num ModelTypes ModelWs ModelHx ModelStateEq ModelEngine ModelApi ModelSerde SpecSerde.
Import ListNotations.
Local Open Scope string_scope.

Lemma bind_some {A B} (o : option A) (f : A -> option B) b :
  bind o f = Some b <-> exists a, o = Some a /\ f a = Some b.
Proof.
  destruct o as [a |]; simpl; split.
  - intros H. exists a. split; [reflexivity | exact H].
  - intros (x & E & H). injection E as <-. exact H.
  - discriminate.
  - intros (x & E & _). discriminate E.
Qed.

Section Generic.
  Context {V F : Type}.
  Variable r : Reader V F.
  Notation D := (doc V).

  Lemma scan_some {A} k (read : D -> option A) l x :
    scan k read l (Some x) =
    match filter (fun kd => String.eqb (fst kd) k) l with [] => Some x | _ => None end.
  Proof.
    induction l as [| [k' d] l IH]; simpl; [reflexivity |].
    destruct (String.eqb k' k); [reflexivity | exact IH].
  Qed.
  Lemma scan_none {A} k (read : D -> option A) l :
    scan k read l None =
    match filter (fun kd => String.eqb (fst kd) k) l with [(_, d)] => read d | _ => None end.
  Proof.
    induction l as [| [k' d] l IH]; simpl; [reflexivity |].
    destruct (String.eqb k' k); [| exact IH].
    destruct (read d) as [x |] eqn:E; simpl.
    - rewrite scan_some. destruct (filter _ l); reflexivity.
    - destruct (filter _ l); reflexivity.
  Qed.
  Lemma field_child {A} k (read : D -> option A) d : field k read d = bind (child d k) read.
  Proof.
    destruct d as [v | l]; simpl; [reflexivity |].
    rewrite scan_none. destruct (filter _ l) as [| [k' d'] [| ? ?]]; reflexivity.
  Qed.
  Lemma fields_at {A} path (read : D -> option A) d : fields path read d = bind (at_path d path) read.
  Proof.
    revert d. induction path as [| k path IH]; intro d; simpl; [reflexivity |].
    rewrite field_child. destruct (child d k) as [d' |]; simpl; [apply IH | reflexivity].
  Qed.
  Lemma field_some {A} k (read : D -> option A) d x :
    field k read d = Some x <-> exists d', at_path d [k] = Some d' /\ read d' = Some x.
  Proof. rewrite field_child, bind_some. simpl. destruct (child d k); reflexivity. Qed.
  Lemma fields_some {A} path (read : D -> option A) d x :
    fields path read d = Some x <-> exists d', at_path d path = Some d' /\ read d' = Some x.
  Proof. rewrite fields_at, bind_some. reflexivity. Qed.

  Lemma leaf_some {A} (read : V -> option A) d x :
    de_leaf read d = Some x <-> exists v, d = Leaf v /\ read v = Some x.
  Proof.
    destruct d as [v | l]; simpl; split.
    - intros H. exists v. split; [reflexivity | exact H].
    - intros (w & E & H). injection E as ->. exact H.
    - discriminate.
    - intros (w & E & _). discriminate E.
  Qed.
  Lemma fields_number path d x : fields path (de_f64 r) d = Some x <-> number r d path x.
  Proof.
    rewrite fields_some. unfold number, de_f64. split.
    - intros (d' & A & B). apply leaf_some in B. destruct B as (v & -> & B). exists v. split; assumption.
    - intros (v & A & B). exists (Leaf v). split; [exact A | exact B].
  Qed.
  Lemma fields_count path d x : fields path (de_u32 r) d = Some x <-> count r d path x.
  Proof.
    rewrite fields_some. unfold count, de_u32. split.
    - intros (d' & A & B). apply leaf_some in B. destruct B as (v & -> & B). exists v. split; assumption.
    - intros (v & A & B). exists (Leaf v). split; [exact A | exact B].
  Qed.
  Lemma field_fields {A} k (read : D -> option A) d : field k read d = fields [k] read d.
  Proof. reflexivity. Qed.

  (** facts below a nested struct *)
  Lemma number_in d k d' path x : child d k = Some d' -> (number r d (k :: path) x <-> number r d' path x).
  Proof. intros E. unfold number. simpl. rewrite E. reflexivity. Qed.
  Lemma count_in d k d' path x : child d k = Some d' -> (count r d (k :: path) x <-> count r d' path x).
  Proof. intros E. unfold count. simpl. rewrite E. reflexivity. Qed.
  Lemma number_child d k path x : number r d (k :: path) x -> exists d', child d k = Some d'.
  Proof. intros (v & A & _). simpl in A. destruct (child d k) as [d' |]; [exists d'; reflexivity | discriminate]. Qed.
  Lemma field_in {A} d k d' (read : D -> option A) x : child d k = Some d' -> field k read d = Some x <-> read d' = Some x.
  Proof. intros E. rewrite field_child, E. reflexivity. Qed.

  (** variant names *)
  Definition unmixed {A} (cases : list (string * A)) : Prop :=
    NoDup (map fst cases) /\ tells_apart r (map fst cases).
  Lemma pick_sound {A} fold (cases : list (string * A)) s a :
    pick fold cases s = Some a -> exists n, In (n, a) cases /\ fold s = fold n.
  Proof.
    induction cases as [| [n b] cases IH]; simpl; [discriminate |].
    destruct (String.eqb_spec (fold s) (fold n)) as [E | E].
    - injection 1 as ->. exists n. split; [left; reflexivity | exact E].
    - intros H. destruct (IH H) as (m & I & E'). exists m. split; [right; exact I | exact E'].
  Qed.
  Lemma pick_complete {A} (fold : string -> string) (cases : list (string * A)) n a s :
    NoDup (map fst cases) ->
    (forall n m, In n (map fst cases) -> In m (map fst cases) -> fold n = fold m -> n = m) ->
    In (n, a) cases -> fold s = fold n -> pick fold cases s = Some a.
  Proof.
    induction cases as [| [m b] cases IH]; simpl; [contradiction |].
    intros ND T I E. inversion ND as [| ? ? N1 N2]; subst.
    destruct (String.eqb_spec (fold s) (fold m)) as [E' | E'].
    - assert (n = m) as ->.
      { apply T; [destruct I as [I | I]; [left; congruence | right; exact (in_map fst _ _ I)] | left; reflexivity | congruence]. }
      destruct I as [I | I]; [congruence |].
      exfalso. apply N1. exact (in_map fst _ _ I).
    - destruct I as [I | I]; [congruence |].
      apply IH; try assumption.
      intros p q Hp Hq. apply T; right; assumption.
  Qed.
  Lemma unit_enum {A} (cases : list (string * A)) (name : A -> string) d a :
    unmixed cases ->
    (forall n a, In (n, a) cases -> n = name a) -> (forall a, In (name a, a) cases) ->
    de_unit_enum r cases d = Some a <-> exists s, rd_unit r d = Some s /\ rd_fold r s = rd_fold r (name a).
  Proof.
    intros [ND T] N1 N2. unfold de_unit_enum. rewrite bind_some. split.
    - intros (s & U & P). destruct (pick_sound _ _ _ _ P) as (n & I & E).
      rewrite (N1 _ _ I) in E. exists s. split; assumption.
    - intros (s & U & E). exists s. split; [exact U |]. exact (pick_complete _ _ _ _ _ ND T (N2 a) E).
  Qed.
  Lemma fields_names {A} (cases : list (string * A)) (name : A -> string) path d a :
    unmixed cases ->
    (forall n a, In (n, a) cases -> n = name a) -> (forall a, In (name a, a) cases) ->
    fields path (de_unit_enum r cases) d = Some a <-> names r d path (name a).
  Proof.
    intros U N1 N2. rewrite fields_some. unfold names. split.
    - intros (d' & P & Q). apply (unit_enum cases name d' a U N1 N2) in Q. destruct Q as (s & Q1 & Q2).
      exists d', s. auto.
    - intros (d' & s & P & Q1 & Q2). exists d'. split; [exact P |].
      apply (unit_enum cases name d' a U N1 N2). exists s. auto.
  Qed.
  Lemma external {A} (cases : list (string * (D -> option A))) d a :
    unmixed cases ->
    de_external r cases d = Some a <->
    exists n read, In (n, read) cases /\ chooses r d [] n (fun d' => read d' = Some a).
  Proof.
    intros [ND T]. split.
    - unfold de_external. destruct d as [v | [| [k d'] [| ? ?]]]; try discriminate.
      rewrite bind_some. intros (read & P & Q).
      destruct (pick_sound _ _ _ _ P) as (n & I & E). exists n, read. split; [exact I |].
      exists k, d'. split; [reflexivity |]. split; assumption.
    - intros (n & read & I & k & d' & P & E & Q). simpl in P. injection P as ->. simpl.
      rewrite (pick_complete _ _ n read k ND T I E). exact Q.
  Qed.
  Lemma variant_some {A B} (read : D -> option A) (con : A -> B) d b :
    variant read con d = Some b <-> exists a, read d = Some a /\ con a = b.
  Proof.
    unfold variant. rewrite bind_some. split.
    - intros (a & P & Q). injection Q as <-. exists a. auto.
    - intros (a & P & <-). exists a. auto.
  Qed.
  Lemma chooses_at d path n inside :
    chooses r d path n inside <-> exists d', at_path d path = Some d' /\ chooses r d' [] n inside.
  Proof.
    unfold chooses. split.
    - intros (k & d' & P & Q). exists (Table [(k, d')]). split; [exact P |].
      exists k, d'. split; [reflexivity | exact Q].
    - intros (d0 & P & k & d' & Q & H). simpl in Q. injection Q as ->. exists k, d'. split; assumption.
  Qed.
  Lemma chooses_ext d path n i1 i2 :
    (forall d', i1 d' <-> i2 d') -> chooses r d path n i1 <-> chooses r d path n i2.
  Proof.
    intros E. unfold chooses. split; intros (k & d' & P & Q & H); exists k, d';
      (split; [exact P | split; [exact Q | apply E; exact H]]).
  Qed.
End Generic.

Lemma at_path_app {V} (d : doc V) p q :
  at_path d (p ++ q)%list = match at_path d p with Some d' => at_path d' q | None => None end.
Proof.
  revert d. induction p as [| k p IH]; intro d; simpl; [reflexivity |].
  destruct (child d k); [apply IH | reflexivity].
Qed.

Ltac no_dup := repeat (constructor; [simpl; intuition discriminate |]); constructor.
Lemma tells_sub {V F} (r : Reader V F) ns ms : tells_apart r ns -> (forall n, In n ms -> In n ns) -> tells_apart r ms.
Proof. intros T I n m A B. apply T; apply I; assumption. Qed.
Lemma tells_one {V F} (r : Reader V F) n : tells_apart r [n].
Proof. intros a b [<- | []] [<- | []] _. reflexivity. Qed.
Ltac sub_names := intros n H; simpl in H |- *; intuition.

Ltac cases_in :=
  let n := fresh in let b := fresh in let H := fresh in
  intros n b H; simpl in H;
  repeat (destruct H as [H | H]; [injection H as <- <-; reflexivity |]); contradiction.
(** one conjunct after the other *)
Ltac unbind H :=
  match type of H with
  | bind _ _ = Some _ => apply bind_some in H; let a := fresh "a" in let P := fresh "P" in
      destruct H as (a & P & H); unbind H
  | Some _ = Some _ => injection H as <-
  end.
Ltac rebind := repeat (apply bind_some; eexists; split; [solve [eauto] |]).

Section Records.
  Context {V F : Type}.
  Variable r : Reader V F.
  Notation D := (doc V).

  Lemma ode_solver_iff path d a :
    fields path (de_ode_solver r) d = Some a <-> names r d path (ode_solver_name a).
  Proof.
    apply fields_names.
    - split; [no_dup | apply tells_one].
    - cases_in.
    - intros []; simpl; tauto.
  Qed.

  Lemma coolant_iff path d a :
    fields path (de_coolant r) d = Some a <-> names r d path (coolant_name a).
  Proof.
    apply fields_names.
    - split; [no_dup | apply tells_one].
    - cases_in.
    - intros []; simpl; tauto.
  Qed.

  Lemma material_iff path d a :
    tells_apart r ["SS304"; "Multimet"; "StainlessSteel"] ->
    fields path (de_material r) d = Some a <-> names r d path (material_name a).
  Proof.
    intros T. apply fields_names.
    - split; [no_dup | exact T].
    - cases_in.
    - intros []; simpl; tauto.
  Qed.

  Lemma chx2_fluid_iff path d a :
    fields path (de_chx2_fluid r) d = Some a <-> names r d path (chx2_fluid_name a).
  Proof.
    apply fields_names.
    - split; [no_dup | apply tells_one].
    - cases_in.
    - intros []; simpl; tauto.
  Qed.

  Lemma correlation_iff path d a :
    tells_apart r ["Oscillating"; "Steady"] ->
    fields path (de_correlation r) d = Some a <-> names r d path (correlation_name a).
  Proof.
    intros T. apply fields_names.
    - split; [no_dup | exact T].
    - cases_in.
    - intros []; simpl; tauto.
  Qed.

  Lemma friction_iff path d a :
    fields path (de_friction r) d = Some a <-> names r d path (friction_name a).
  Proof.
    apply fields_names.
    - split; [no_dup | apply tells_one].
    - cases_in.
    - intros []; simpl; tauto.
  Qed.

  Lemma jfactor_iff path d a :
    fields path (de_jfactor r) d = Some a <-> names r d path (jfactor_name a).
  Proof.
    apply fields_names.
    - split; [no_dup | apply tells_one].
    - cases_in.
    - intros []; simpl; tauto.
  Qed.

  Lemma fluid_option_iff path d a :
    tells_apart r ["Hydrogen"; "Helium"] ->
    fields path (de_fluid_option r) d = Some a <-> names r d path (fluid_option_name a).
  Proof.
    intros T. apply fields_names.
    - split; [no_dup | exact T].
    - cases_in.
    - intros []; simpl; tauto.
  Qed.

  Lemma tolerance_iff k d t :
    field k (de_tolerance r) d = Some t <->
    number r d [k; "abs"] (tc_abs t) /\ number r d [k; "rel"] (tc_rel t).
  Proof.
    rewrite field_child, bind_some. split.
    - intros (d' & E & H). unfold de_tolerance in H. unbind H. simpl.
      split; apply (number_in r _ _ _ _ _ E); apply fields_number; assumption.
    - intros [A B]. destruct (number_child _ _ _ _ _ A) as (d' & E). exists d'. split; [exact E |].
      apply (number_in r _ _ _ _ _ E) in A, B.
      apply (fields_number r ["abs"]) in A. apply (fields_number r ["rel"]) in B.
      apply bind_some; eexists; split; [exact A |].
      apply bind_some; eexists; split; [exact B |]. destruct t; reflexivity.
  Qed.

  Lemma inner_loop_iff k d c :
    field k (de_inner_loop r) d = Some c <->
    number r d [k; "tolerance"; "abs"] (tc_abs (ilc_tolerance c)) /\
    number r d [k; "tolerance"; "rel"] (tc_rel (ilc_tolerance c)) /\
    count r d [k; "max_iterations"] (ilc_max_iterations c).
  Proof.
    rewrite field_child, bind_some. split.
    - intros (d' & E & H). unfold de_inner_loop in H. unbind H. simpl.
      apply tolerance_iff in P. destruct P as [A B].
      split; [| split].
      + apply (number_in r _ _ _ _ _ E). exact A.
      + apply (number_in r _ _ _ _ _ E). exact B.
      + apply (count_in r _ _ _ _ _ E). apply fields_count. exact P0.
    - intros (A & B & C). destruct (number_child _ _ _ _ _ A) as (d' & E). exists d'. split; [exact E |].
      apply (number_in r _ _ _ _ _ E) in A, B. apply (count_in r _ _ _ _ _ E) in C.
      apply (fields_count r ["max_iterations"]) in C.
      apply bind_some; eexists; split; [exact (proj2 (tolerance_iff _ _ _) (conj A B)) |].
      apply bind_some; eexists; split; [exact C |]. destruct c; reflexivity.
  Qed.

  Lemma outer_loop_iff k d c :
    field k (de_outer_loop r) d = Some c <->
    number r d [k; "tolerance"; "abs"] (tc_abs (olc_tolerance c)) /\
    number r d [k; "tolerance"; "rel"] (tc_rel (olc_tolerance c)) /\
    count r d [k; "max_iterations"] (olc_max_iterations c).
  Proof.
    rewrite field_child, bind_some. split.
    - intros (d' & E & H). unfold de_outer_loop in H. unbind H. simpl.
      apply tolerance_iff in P. destruct P as [A B].
      split; [| split].
      + apply (number_in r _ _ _ _ _ E). exact A.
      + apply (number_in r _ _ _ _ _ E). exact B.
      + apply (count_in r _ _ _ _ _ E). apply fields_count. exact P0.
    - intros (A & B & C). destruct (number_child _ _ _ _ _ A) as (d' & E). exists d'. split; [exact E |].
      apply (number_in r _ _ _ _ _ E) in A, B. apply (count_in r _ _ _ _ _ E) in C.
      apply (fields_count r ["max_iterations"]) in C.
      apply bind_some; eexists; split; [exact (proj2 (tolerance_iff _ _ _) (conj A B)) |].
      apply bind_some; eexists; split; [exact C |]. destruct c; reflexivity.
  Qed.

  Lemma ode_iff k d c :
    field k (de_ode r) d = Some c <->
    number r d [k; "tolerance"; "abs"] (tc_abs (oc_tolerance c)) /\
    number r d [k; "tolerance"; "rel"] (tc_rel (oc_tolerance c)) /\
    count r d [k; "num_timesteps"] (oc_num_timesteps c).
  Proof.
    rewrite field_child, bind_some. split.
    - intros (d' & E & H). unfold de_ode in H. unbind H. simpl.
      apply tolerance_iff in P. destruct P as [A B].
      split; [| split].
      + apply (number_in r _ _ _ _ _ E). exact A.
      + apply (number_in r _ _ _ _ _ E). exact B.
      + apply (count_in r _ _ _ _ _ E). apply fields_count. exact P0.
    - intros (A & B & C). destruct (number_child _ _ _ _ _ A) as (d' & E). exists d'. split; [exact E |].
      apply (number_in r _ _ _ _ _ E) in A, B. apply (count_in r _ _ _ _ _ E) in C.
      apply (fields_count r ["num_timesteps"]) in C.
      apply bind_some; eexists; split; [exact (proj2 (tolerance_iff _ _ _) (conj A B)) |].
      apply bind_some; eexists; split; [exact C |]. destruct c; reflexivity.
  Qed.

  Lemma solver_iff d c :
    de_solver r d = Some c <-> spells_solver r d c.
  Proof.
    unfold de_solver, spells_solver. split.
    - intros H. unbind H. simpl.
      apply (inner_loop_iff "inner_loop") in P.
      apply (outer_loop_iff "outer_loop") in P0.
      apply (ode_iff "ode") in P1.
      tauto.
    - intros H. destruct c. simpl in H.
      destruct H as [A0_0 H].
      destruct H as [A0_1 H].
      destruct H as [A0_2 H].
      destruct H as [A1_0 H].
      destruct H as [A1_1 H].
      destruct H as [A1_2 H].
      destruct H as [A2_0 H].
      destruct H as [A2_1 H].
      rename H into A2_2.
      apply bind_some; eexists; split; [exact (proj2 (inner_loop_iff "inner_loop" d _) (conj A0_0 (conj A0_1 A0_2))) |].
      apply bind_some; eexists; split; [exact (proj2 (outer_loop_iff "outer_loop" d _) (conj A1_0 (conj A1_1 A1_2))) |].
      apply bind_some; eexists; split; [exact (proj2 (ode_iff "ode" d _) (conj A2_0 (conj A2_1 A2_2))) |].
      reflexivity.
  Qed.

  Lemma conditions_iff d c :
    de_conditions r d = Some c <-> spells_conditions r d c.
  Proof.
    unfold de_conditions, spells_conditions. split.
    - intros H. unbind H. simpl.
      apply (fields_number r ["temp_sink"]) in P.
      apply (fields_number r ["temp_source"]) in P0.
      apply (fields_number r ["pres_zero"]) in P1.
      tauto.
    - intros H. destruct c. simpl in H.
      destruct H as [A0_0 H].
      destruct H as [A1_0 H].
      rename H into A2_0.
      apply bind_some; eexists; split; [exact (proj2 (fields_number r ["temp_sink"] d _) A0_0) |].
      apply bind_some; eexists; split; [exact (proj2 (fields_number r ["temp_source"] d _) A1_0) |].
      apply bind_some; eexists; split; [exact (proj2 (fields_number r ["pres_zero"] d _) A2_0) |].
      reflexivity.
  Qed.

  Lemma legacy_solver_iff d c :
    de_legacy_solver r d = Some c <-> spells_legacy_solver r d c.
  Proof.
    unfold de_legacy_solver, spells_legacy_solver. split.
    - intros H. unbind H. simpl.
      apply (tolerance_iff "innerLoopTolerance") in P.
      apply (tolerance_iff "outerLoopTolerance") in P0.
      apply (tolerance_iff "odeTolerance") in P1.
      apply (ode_solver_iff ["odeSolver"] _ _) in P2.
      apply (fields_count r ["timeResolution"]) in P3.
      tauto.
    - intros H. destruct c. simpl in H.
      destruct H as [A0_0 H].
      destruct H as [A0_1 H].
      destruct H as [A1_0 H].
      destruct H as [A1_1 H].
      destruct H as [A2_0 H].
      destruct H as [A2_1 H].
      destruct H as [A3_0 H].
      rename H into A4_0.
      apply bind_some; eexists; split; [exact (proj2 (tolerance_iff "innerLoopTolerance" d _) (conj A0_0 A0_1)) |].
      apply bind_some; eexists; split; [exact (proj2 (tolerance_iff "outerLoopTolerance" d _) (conj A1_0 A1_1)) |].
      apply bind_some; eexists; split; [exact (proj2 (tolerance_iff "odeTolerance" d _) (conj A2_0 A2_1)) |].
      apply bind_some; eexists; split; [exact (proj2 (ode_solver_iff ["odeSolver"] _ _) A3_0) |].
      apply bind_some; eexists; split; [exact (proj2 (fields_count r ["timeResolution"] d _) A4_0) |].
      reflexivity.
  Qed.

  Lemma legacy_conditions_iff d c :
    de_legacy_conditions r d = Some c <-> spells_legacy_conditions r d c.
  Proof.
    unfold de_legacy_conditions, spells_legacy_conditions. split.
    - intros H. unbind H. simpl.
      apply (fields_number r ["T_cold"]) in P.
      apply (fields_number r ["T_hot"]) in P0.
      apply (fields_number r ["P_0"]) in P1.
      tauto.
    - intros H. destruct c. simpl in H.
      destruct H as [A0_0 H].
      destruct H as [A1_0 H].
      rename H into A2_0.
      apply bind_some; eexists; split; [exact (proj2 (fields_number r ["T_cold"] d _) A0_0) |].
      apply bind_some; eexists; split; [exact (proj2 (fields_number r ["T_hot"] d _) A1_0) |].
      apply bind_some; eexists; split; [exact (proj2 (fields_number r ["P_0"] d _) A2_0) |].
      reflexivity.
  Qed.

  Lemma chx_fa_iff d c :
    de_chx_fa r d = Some c <-> spells_chx_fa r d c.
  Proof.
    unfold de_chx_fa, spells_chx_fa. split.
    - intros H. unbind H. simpl.
      apply (fields_number r ["vol"]) in P.
      apply (fields_number r ["DT"]) in P0.
      apply (fields_number r ["R_hyd"]) in P1.
      apply (fields_number r ["W_parasitic"]) in P2.
      tauto.
    - intros H. destruct c. simpl in H.
      destruct H as [A0_0 H].
      destruct H as [A1_0 H].
      destruct H as [A2_0 H].
      rename H into A3_0.
      apply bind_some; eexists; split; [exact (proj2 (fields_number r ["vol"] d _) A0_0) |].
      apply bind_some; eexists; split; [exact (proj2 (fields_number r ["DT"] d _) A1_0) |].
      apply bind_some; eexists; split; [exact (proj2 (fields_number r ["R_hyd"] d _) A2_0) |].
      apply bind_some; eexists; split; [exact (proj2 (fields_number r ["W_parasitic"] d _) A3_0) |].
      reflexivity.
  Qed.

  Lemma chx_fc_iff d c :
    de_chx_fc r d = Some c <-> spells_chx_fc r d c.
  Proof.
    unfold de_chx_fc, spells_chx_fc. split.
    - intros H. unbind H. simpl.
      apply (fields_number r ["vol"]) in P.
      apply (fields_number r ["UA"]) in P0.
      apply (fields_number r ["R_hyd"]) in P1.
      apply (fields_number r ["W_parasitic"]) in P2.
      tauto.
    - intros H. destruct c. simpl in H.
      destruct H as [A0_0 H].
      destruct H as [A1_0 H].
      destruct H as [A2_0 H].
      rename H into A3_0.
      apply bind_some; eexists; split; [exact (proj2 (fields_number r ["vol"] d _) A0_0) |].
      apply bind_some; eexists; split; [exact (proj2 (fields_number r ["UA"] d _) A1_0) |].
      apply bind_some; eexists; split; [exact (proj2 (fields_number r ["R_hyd"] d _) A2_0) |].
      apply bind_some; eexists; split; [exact (proj2 (fields_number r ["W_parasitic"] d _) A3_0) |].
      reflexivity.
  Qed.

  Lemma regen_fa_iff d c :
    de_regen_fa r d = Some c <-> spells_regen_fa r d c.
  Proof.
    unfold de_regen_fa, spells_regen_fa. split.
    - intros H. unbind H. simpl.
      apply (fields_number r ["vol"]) in P.
      apply (fields_number r ["DT"]) in P0.
      apply (fields_number r ["R_hyd"]) in P1.
      apply (fields_number r ["Q_parasitic"]) in P2.
      tauto.
    - intros H. destruct c. simpl in H.
      destruct H as [A0_0 H].
      destruct H as [A1_0 H].
      destruct H as [A2_0 H].
      rename H into A3_0.
      apply bind_some; eexists; split; [exact (proj2 (fields_number r ["vol"] d _) A0_0) |].
      apply bind_some; eexists; split; [exact (proj2 (fields_number r ["DT"] d _) A1_0) |].
      apply bind_some; eexists; split; [exact (proj2 (fields_number r ["R_hyd"] d _) A2_0) |].
      apply bind_some; eexists; split; [exact (proj2 (fields_number r ["Q_parasitic"] d _) A3_0) |].
      reflexivity.
  Qed.

  Lemma regen_fc_iff d c :
    de_regen_fc r d = Some c <-> spells_regen_fc r d c.
  Proof.
    unfold de_regen_fc, spells_regen_fc. split.
    - intros H. unbind H. simpl.
      apply (fields_number r ["vol"]) in P.
      apply (fields_number r ["UA"]) in P0.
      apply (fields_number r ["R_hyd"]) in P1.
      apply (fields_number r ["Q_parasitic"]) in P2.
      tauto.
    - intros H. destruct c. simpl in H.
      destruct H as [A0_0 H].
      destruct H as [A1_0 H].
      destruct H as [A2_0 H].
      rename H into A3_0.
      apply bind_some; eexists; split; [exact (proj2 (fields_number r ["vol"] d _) A0_0) |].
      apply bind_some; eexists; split; [exact (proj2 (fields_number r ["UA"] d _) A1_0) |].
      apply bind_some; eexists; split; [exact (proj2 (fields_number r ["R_hyd"] d _) A2_0) |].
      apply bind_some; eexists; split; [exact (proj2 (fields_number r ["Q_parasitic"] d _) A3_0) |].
      reflexivity.
  Qed.

  Lemma hhx_fa_iff d c :
    de_hhx_fa r d = Some c <-> spells_hhx_fa r d c.
  Proof.
    unfold de_hhx_fa, spells_hhx_fa. split.
    - intros H. unbind H. simpl.
      apply (fields_number r ["vol"]) in P.
      apply (fields_number r ["DT"]) in P0.
      apply (fields_number r ["R_hyd"]) in P1.
      apply (fields_number r ["W_parasitic"]) in P2.
      apply (fields_number r ["Q_parasitic"]) in P3.
      tauto.
    - intros H. destruct c. simpl in H.
      destruct H as [A0_0 H].
      destruct H as [A1_0 H].
      destruct H as [A2_0 H].
      destruct H as [A3_0 H].
      rename H into A4_0.
      apply bind_some; eexists; split; [exact (proj2 (fields_number r ["vol"] d _) A0_0) |].
      apply bind_some; eexists; split; [exact (proj2 (fields_number r ["DT"] d _) A1_0) |].
      apply bind_some; eexists; split; [exact (proj2 (fields_number r ["R_hyd"] d _) A2_0) |].
      apply bind_some; eexists; split; [exact (proj2 (fields_number r ["W_parasitic"] d _) A3_0) |].
      apply bind_some; eexists; split; [exact (proj2 (fields_number r ["Q_parasitic"] d _) A4_0) |].
      reflexivity.
  Qed.

  Lemma hhx_fc_iff d c :
    de_hhx_fc r d = Some c <-> spells_hhx_fc r d c.
  Proof.
    unfold de_hhx_fc, spells_hhx_fc. split.
    - intros H. unbind H. simpl.
      apply (fields_number r ["vol"]) in P.
      apply (fields_number r ["UA"]) in P0.
      apply (fields_number r ["R_hyd"]) in P1.
      apply (fields_number r ["W_parasitic"]) in P2.
      apply (fields_number r ["Q_parasitic"]) in P3.
      tauto.
    - intros H. destruct c. simpl in H.
      destruct H as [A0_0 H].
      destruct H as [A1_0 H].
      destruct H as [A2_0 H].
      destruct H as [A3_0 H].
      rename H into A4_0.
      apply bind_some; eexists; split; [exact (proj2 (fields_number r ["vol"] d _) A0_0) |].
      apply bind_some; eexists; split; [exact (proj2 (fields_number r ["UA"] d _) A1_0) |].
      apply bind_some; eexists; split; [exact (proj2 (fields_number r ["R_hyd"] d _) A2_0) |].
      apply bind_some; eexists; split; [exact (proj2 (fields_number r ["W_parasitic"] d _) A3_0) |].
      apply bind_some; eexists; split; [exact (proj2 (fields_number r ["Q_parasitic"] d _) A4_0) |].
      reflexivity.
  Qed.

  Lemma chx_gpu3_iff d c :
    de_chx_gpu3 r d = Some c <-> spells_chx_gpu3 r d c.
  Proof.
    unfold de_chx_gpu3, spells_chx_gpu3. split.
    - intros H. unbind H. simpl.
      apply (fields_number r ["length_total"]) in P.
      apply (fields_number r ["length_ht"]) in P0.
      apply (fields_number r ["D_inner"]) in P1.
      apply (fields_number r ["D_outer"]) in P2.
      apply (fields_count r ["N_total"]) in P3.
      apply (fields_count r ["N_shell"]) in P4.
      apply (fields_number r ["D_sh"]) in P5.
      apply (fields_number r ["Ac_d"]) in P6.
      apply (fields_number r ["roughness"]) in P7.
      apply (fields_number r ["vol_h"]) in P8.
      apply (fields_number r ["m_dot_w"]) in P9.
      apply (coolant_iff ["coolant"] _ _) in P10.
      apply (fields_number r ["m_dot_a"]) in P11.
      apply (fields_number r ["UA_a"]) in P12.
      apply (fields_number r ["W_parasitic"]) in P13.
      tauto.
    - intros H. destruct c. simpl in H.
      destruct H as [A0_0 H].
      destruct H as [A1_0 H].
      destruct H as [A2_0 H].
      destruct H as [A3_0 H].
      destruct H as [A4_0 H].
      destruct H as [A5_0 H].
      destruct H as [A6_0 H].
      destruct H as [A7_0 H].
      destruct H as [A8_0 H].
      destruct H as [A9_0 H].
      destruct H as [A10_0 H].
      destruct H as [A11_0 H].
      destruct H as [A12_0 H].
      destruct H as [A13_0 H].
      rename H into A14_0.
      apply bind_some; eexists; split; [exact (proj2 (fields_number r ["length_total"] d _) A0_0) |].
      apply bind_some; eexists; split; [exact (proj2 (fields_number r ["length_ht"] d _) A1_0) |].
      apply bind_some; eexists; split; [exact (proj2 (fields_number r ["D_inner"] d _) A2_0) |].
      apply bind_some; eexists; split; [exact (proj2 (fields_number r ["D_outer"] d _) A3_0) |].
      apply bind_some; eexists; split; [exact (proj2 (fields_count r ["N_total"] d _) A4_0) |].
      apply bind_some; eexists; split; [exact (proj2 (fields_count r ["N_shell"] d _) A5_0) |].
      apply bind_some; eexists; split; [exact (proj2 (fields_number r ["D_sh"] d _) A6_0) |].
      apply bind_some; eexists; split; [exact (proj2 (fields_number r ["Ac_d"] d _) A7_0) |].
      apply bind_some; eexists; split; [exact (proj2 (fields_number r ["roughness"] d _) A8_0) |].
      apply bind_some; eexists; split; [exact (proj2 (fields_number r ["vol_h"] d _) A9_0) |].
      apply bind_some; eexists; split; [exact (proj2 (fields_number r ["m_dot_w"] d _) A10_0) |].
      apply bind_some; eexists; split; [exact (proj2 (coolant_iff ["coolant"] _ _) A11_0) |].
      apply bind_some; eexists; split; [exact (proj2 (fields_number r ["m_dot_a"] d _) A12_0) |].
      apply bind_some; eexists; split; [exact (proj2 (fields_number r ["UA_a"] d _) A13_0) |].
      apply bind_some; eexists; split; [exact (proj2 (fields_number r ["W_parasitic"] d _) A14_0) |].
      reflexivity.
  Qed.

  Lemma chx_mod2_iff d c :
    tells_apart r ["SS304"; "Multimet"; "StainlessSteel"] ->
    tells_apart r ["Oscillating"; "Steady"] ->
    de_chx_mod2 r d = Some c <-> spells_chx_mod2 r d c.
  Proof.
    intros T0 T1. unfold de_chx_mod2, spells_chx_mod2. split.
    - intros H. unbind H. simpl.
      apply (fields_number r ["geometry"; "tubes"; "length"]) in P.
      apply (fields_number r ["geometry"; "tubes"; "length_ht"]) in P0.
      apply (fields_number r ["geometry"; "tubes"; "D_outer"]) in P1.
      apply (fields_number r ["geometry"; "tubes"; "D_inner"]) in P2.
      apply (fields_count r ["geometry"; "tubes"; "N_total"]) in P3.
      apply (fields_number r ["geometry"; "tubes"; "roughness"]) in P4.
      apply (material_iff ["geometry"; "tubes"; "material"] _ _ T0) in P5.
      apply (fields_number r ["geometry"; "shell"; "R_inner"]) in P6.
      apply (fields_number r ["geometry"; "shell"; "V_header"]) in P7.
      apply (fields_number r ["geometry"; "shell"; "Ac_header"]) in P8.
      apply (fields_number r ["m_dot_p_fs"]) in P9.
      apply (fields_number r ["W_dot_p_fs"]) in P10.
      apply (fields_number r ["n_fs"]) in P11.
      apply (chx2_fluid_iff ["fluid"] _ _) in P12.
      apply (correlation_iff ["correlation"] _ _ T1) in P13.
      tauto.
    - intros H. destruct c. simpl in H.
      destruct H as [A0_0 H].
      destruct H as [A1_0 H].
      destruct H as [A2_0 H].
      destruct H as [A3_0 H].
      destruct H as [A4_0 H].
      destruct H as [A5_0 H].
      destruct H as [A6_0 H].
      destruct H as [A7_0 H].
      destruct H as [A8_0 H].
      destruct H as [A9_0 H].
      destruct H as [A10_0 H].
      destruct H as [A11_0 H].
      destruct H as [A12_0 H].
      destruct H as [A13_0 H].
      rename H into A14_0.
      apply bind_some; eexists; split; [exact (proj2 (fields_number r ["geometry"; "tubes"; "length"] d _) A0_0) |].
      apply bind_some; eexists; split; [exact (proj2 (fields_number r ["geometry"; "tubes"; "length_ht"] d _) A1_0) |].
      apply bind_some; eexists; split; [exact (proj2 (fields_number r ["geometry"; "tubes"; "D_outer"] d _) A2_0) |].
      apply bind_some; eexists; split; [exact (proj2 (fields_number r ["geometry"; "tubes"; "D_inner"] d _) A3_0) |].
      apply bind_some; eexists; split; [exact (proj2 (fields_count r ["geometry"; "tubes"; "N_total"] d _) A4_0) |].
      apply bind_some; eexists; split; [exact (proj2 (fields_number r ["geometry"; "tubes"; "roughness"] d _) A5_0) |].
      apply bind_some; eexists; split; [exact (proj2 (material_iff ["geometry"; "tubes"; "material"] _ _ T0) A6_0) |].
      apply bind_some; eexists; split; [exact (proj2 (fields_number r ["geometry"; "shell"; "R_inner"] d _) A7_0) |].
      apply bind_some; eexists; split; [exact (proj2 (fields_number r ["geometry"; "shell"; "V_header"] d _) A8_0) |].
      apply bind_some; eexists; split; [exact (proj2 (fields_number r ["geometry"; "shell"; "Ac_header"] d _) A9_0) |].
      apply bind_some; eexists; split; [exact (proj2 (fields_number r ["m_dot_p_fs"] d _) A10_0) |].
      apply bind_some; eexists; split; [exact (proj2 (fields_number r ["W_dot_p_fs"] d _) A11_0) |].
      apply bind_some; eexists; split; [exact (proj2 (fields_number r ["n_fs"] d _) A12_0) |].
      apply bind_some; eexists; split; [exact (proj2 (chx2_fluid_iff ["fluid"] _ _) A13_0) |].
      apply bind_some; eexists; split; [exact (proj2 (correlation_iff ["correlation"] _ _ T1) A14_0) |].
      reflexivity.
  Qed.

  Lemma regen_gpu3_iff d c :
    tells_apart r ["SS304"; "Multimet"; "StainlessSteel"] ->
    de_regen_gpu3 r d = Some c <-> spells_regen_gpu3 r d c.
  Proof.
    intros T0. unfold de_regen_gpu3, spells_regen_gpu3. split.
    - intros H. unbind H. simpl.
      apply (fields_number r ["geometry"; "vol_h"]) in P.
      apply (material_iff ["geometry"; "mesh"; "material"] _ _ T0) in P0.
      apply (fields_number r ["geometry"; "mesh"; "D_wire"]) in P1.
      apply (fields_number r ["geometry"; "mesh"; "pitch"]) in P2.
      apply (fields_number r ["geometry"; "shell"; "diameter"]) in P3.
      apply (fields_number r ["geometry"; "shell"; "length"]) in P4.
      apply (fields_count r ["geometry"; "shell"; "number"]) in P5.
      apply (fields_number r ["Q_parasitic"]) in P6.
      apply (fields_number r ["bypass"]) in P7.
      apply (friction_iff ["correlationf"] _ _) in P8.
      apply (jfactor_iff ["correlationj"] _ _) in P9.
      tauto.
    - intros H. destruct c. simpl in H.
      destruct H as [A0_0 H].
      destruct H as [A1_0 H].
      destruct H as [A2_0 H].
      destruct H as [A3_0 H].
      destruct H as [A4_0 H].
      destruct H as [A5_0 H].
      destruct H as [A6_0 H].
      destruct H as [A7_0 H].
      destruct H as [A8_0 H].
      destruct H as [A9_0 H].
      rename H into A10_0.
      apply bind_some; eexists; split; [exact (proj2 (fields_number r ["geometry"; "vol_h"] d _) A0_0) |].
      apply bind_some; eexists; split; [exact (proj2 (material_iff ["geometry"; "mesh"; "material"] _ _ T0) A1_0) |].
      apply bind_some; eexists; split; [exact (proj2 (fields_number r ["geometry"; "mesh"; "D_wire"] d _) A2_0) |].
      apply bind_some; eexists; split; [exact (proj2 (fields_number r ["geometry"; "mesh"; "pitch"] d _) A3_0) |].
      apply bind_some; eexists; split; [exact (proj2 (fields_number r ["geometry"; "shell"; "diameter"] d _) A4_0) |].
      apply bind_some; eexists; split; [exact (proj2 (fields_number r ["geometry"; "shell"; "length"] d _) A5_0) |].
      apply bind_some; eexists; split; [exact (proj2 (fields_count r ["geometry"; "shell"; "number"] d _) A6_0) |].
      apply bind_some; eexists; split; [exact (proj2 (fields_number r ["Q_parasitic"] d _) A7_0) |].
      apply bind_some; eexists; split; [exact (proj2 (fields_number r ["bypass"] d _) A8_0) |].
      apply bind_some; eexists; split; [exact (proj2 (friction_iff ["correlationf"] _ _) A9_0) |].
      apply bind_some; eexists; split; [exact (proj2 (jfactor_iff ["correlationj"] _ _) A10_0) |].
      reflexivity.
  Qed.

  Lemma regen_mod2_iff d c :
    tells_apart r ["SS304"; "Multimet"; "StainlessSteel"] ->
    tells_apart r ["Oscillating"; "Steady"] ->
    de_regen_mod2 r d = Some c <-> spells_regen_mod2 r d c.
  Proof.
    intros T0 T1. unfold de_regen_mod2, spells_regen_mod2. split.
    - intros H. unbind H. simpl.
      apply (material_iff ["geometry"; "mesh"; "material"] _ _ T0) in P.
      apply (fields_number r ["geometry"; "mesh"; "D_wire"]) in P0.
      apply (fields_number r ["geometry"; "mesh"; "pitch"]) in P1.
      apply (material_iff ["geometry"; "shell"; "material"] _ _ T0) in P2.
      apply (fields_number r ["geometry"; "shell"; "R_sh"]) in P3.
      apply (fields_number r ["geometry"; "shell"; "th_sh_cold"]) in P4.
      apply (fields_number r ["geometry"; "shell"; "th_sh_hot"]) in P5.
      apply (fields_number r ["geometry"; "shell"; "length"]) in P6.
      apply (correlation_iff ["correlationtype"] _ _ T1) in P7.
      apply (friction_iff ["correlationf"] _ _) in P8.
      apply (jfactor_iff ["correlationj"] _ _) in P9.
      tauto.
    - intros H. destruct c. simpl in H.
      destruct H as [A0_0 H].
      destruct H as [A1_0 H].
      destruct H as [A2_0 H].
      destruct H as [A3_0 H].
      destruct H as [A4_0 H].
      destruct H as [A5_0 H].
      destruct H as [A6_0 H].
      destruct H as [A7_0 H].
      destruct H as [A8_0 H].
      destruct H as [A9_0 H].
      rename H into A10_0.
      apply bind_some; eexists; split; [exact (proj2 (material_iff ["geometry"; "mesh"; "material"] _ _ T0) A0_0) |].
      apply bind_some; eexists; split; [exact (proj2 (fields_number r ["geometry"; "mesh"; "D_wire"] d _) A1_0) |].
      apply bind_some; eexists; split; [exact (proj2 (fields_number r ["geometry"; "mesh"; "pitch"] d _) A2_0) |].
      apply bind_some; eexists; split; [exact (proj2 (material_iff ["geometry"; "shell"; "material"] _ _ T0) A3_0) |].
      apply bind_some; eexists; split; [exact (proj2 (fields_number r ["geometry"; "shell"; "R_sh"] d _) A4_0) |].
      apply bind_some; eexists; split; [exact (proj2 (fields_number r ["geometry"; "shell"; "th_sh_cold"] d _) A5_0) |].
      apply bind_some; eexists; split; [exact (proj2 (fields_number r ["geometry"; "shell"; "th_sh_hot"] d _) A6_0) |].
      apply bind_some; eexists; split; [exact (proj2 (fields_number r ["geometry"; "shell"; "length"] d _) A7_0) |].
      apply bind_some; eexists; split; [exact (proj2 (correlation_iff ["correlationtype"] _ _ T1) A8_0) |].
      apply bind_some; eexists; split; [exact (proj2 (friction_iff ["correlationf"] _ _) A9_0) |].
      apply bind_some; eexists; split; [exact (proj2 (jfactor_iff ["correlationj"] _ _) A10_0) |].
      reflexivity.
  Qed.

  Lemma hhx_gpu3_iff d c :
    de_hhx_gpu3 r d = Some c <-> spells_hhx_gpu3 r d c.
  Proof.
    unfold de_hhx_gpu3, spells_hhx_gpu3. split.
    - intros H. unbind H. simpl.
      apply (fields_number r ["L_total"]) in P.
      apply (fields_number r ["L_htr"]) in P0.
      apply (fields_number r ["R_tc"]) in P1.
      apply (fields_number r ["D_outer"]) in P2.
      apply (fields_number r ["D_inner"]) in P3.
      apply (fields_number r ["roughness"]) in P4.
      apply (fields_count r ["N_total"]) in P5.
      apply (fields_number r ["vol_h"]) in P6.
      apply (fields_number r ["eta_comb"]) in P7.
      apply (fields_number r ["R_c_loss"]) in P8.
      apply (fields_number r ["W_parasitic"]) in P9.
      tauto.
    - intros H. destruct c. simpl in H.
      destruct H as [A0_0 H].
      destruct H as [A1_0 H].
      destruct H as [A2_0 H].
      destruct H as [A3_0 H].
      destruct H as [A4_0 H].
      destruct H as [A5_0 H].
      destruct H as [A6_0 H].
      destruct H as [A7_0 H].
      destruct H as [A8_0 H].
      destruct H as [A9_0 H].
      rename H into A10_0.
      apply bind_some; eexists; split; [exact (proj2 (fields_number r ["L_total"] d _) A0_0) |].
      apply bind_some; eexists; split; [exact (proj2 (fields_number r ["L_htr"] d _) A1_0) |].
      apply bind_some; eexists; split; [exact (proj2 (fields_number r ["R_tc"] d _) A2_0) |].
      apply bind_some; eexists; split; [exact (proj2 (fields_number r ["D_outer"] d _) A3_0) |].
      apply bind_some; eexists; split; [exact (proj2 (fields_number r ["D_inner"] d _) A4_0) |].
      apply bind_some; eexists; split; [exact (proj2 (fields_number r ["roughness"] d _) A5_0) |].
      apply bind_some; eexists; split; [exact (proj2 (fields_count r ["N_total"] d _) A6_0) |].
      apply bind_some; eexists; split; [exact (proj2 (fields_number r ["vol_h"] d _) A7_0) |].
      apply bind_some; eexists; split; [exact (proj2 (fields_number r ["eta_comb"] d _) A8_0) |].
      apply bind_some; eexists; split; [exact (proj2 (fields_number r ["R_c_loss"] d _) A9_0) |].
      apply bind_some; eexists; split; [exact (proj2 (fields_number r ["W_parasitic"] d _) A10_0) |].
      reflexivity.
  Qed.

  Lemma hhx_mod2_iff d c :
    tells_apart r ["SS304"; "Multimet"; "StainlessSteel"] ->
    tells_apart r ["Oscillating"; "Steady"] ->
    de_hhx_mod2 r d = Some c <-> spells_hhx_mod2 r d c.
  Proof.
    intros T0 T1. unfold de_hhx_mod2, spells_hhx_mod2. split.
    - intros H. unbind H. simpl.
      apply (fields_number r ["geometry"; "tubes"; "L_front"]) in P.
      apply (fields_number r ["geometry"; "tubes"; "L_rear"]) in P0.
      apply (fields_number r ["geometry"; "tubes"; "L_inactive"]) in P1.
      apply (fields_number r ["geometry"; "tubes"; "D_outer"]) in P2.
      apply (fields_number r ["geometry"; "tubes"; "D_inner"]) in P3.
      apply (fields_number r ["geometry"; "tubes"; "roughness"]) in P4.
      apply (fields_count r ["geometry"; "tubes"; "N_total"]) in P5.
      apply (material_iff ["geometry"; "tubes"; "materialtube"] _ _ T0) in P6.
      apply (material_iff ["geometry"; "tubes"; "materialfin"] _ _ T0) in P7.
      apply (fields_number r ["geometry"; "shell"; "R_outer"]) in P8.
      apply (fields_number r ["geometry"; "shell"; "R_inner"]) in P9.
      apply (fields_number r ["geometry"; "shell"; "V_header"]) in P10.
      apply (fields_number r ["geometry"; "fins"; "thickness"]) in P11.
      apply (fields_number r ["geometry"; "fins"; "pitch"]) in P12.
      apply (fields_number r ["geometry"; "fins"; "L_fin"]) in P13.
      apply (correlation_iff ["correlation"] _ _ T1) in P14.
      tauto.
    - intros H. destruct c. simpl in H.
      destruct H as [A0_0 H].
      destruct H as [A1_0 H].
      destruct H as [A2_0 H].
      destruct H as [A3_0 H].
      destruct H as [A4_0 H].
      destruct H as [A5_0 H].
      destruct H as [A6_0 H].
      destruct H as [A7_0 H].
      destruct H as [A8_0 H].
      destruct H as [A9_0 H].
      destruct H as [A10_0 H].
      destruct H as [A11_0 H].
      destruct H as [A12_0 H].
      destruct H as [A13_0 H].
      destruct H as [A14_0 H].
      rename H into A15_0.
      apply bind_some; eexists; split; [exact (proj2 (fields_number r ["geometry"; "tubes"; "L_front"] d _) A0_0) |].
      apply bind_some; eexists; split; [exact (proj2 (fields_number r ["geometry"; "tubes"; "L_rear"] d _) A1_0) |].
      apply bind_some; eexists; split; [exact (proj2 (fields_number r ["geometry"; "tubes"; "L_inactive"] d _) A2_0) |].
      apply bind_some; eexists; split; [exact (proj2 (fields_number r ["geometry"; "tubes"; "D_outer"] d _) A3_0) |].
      apply bind_some; eexists; split; [exact (proj2 (fields_number r ["geometry"; "tubes"; "D_inner"] d _) A4_0) |].
      apply bind_some; eexists; split; [exact (proj2 (fields_number r ["geometry"; "tubes"; "roughness"] d _) A5_0) |].
      apply bind_some; eexists; split; [exact (proj2 (fields_count r ["geometry"; "tubes"; "N_total"] d _) A6_0) |].
      apply bind_some; eexists; split; [exact (proj2 (material_iff ["geometry"; "tubes"; "materialtube"] _ _ T0) A7_0) |].
      apply bind_some; eexists; split; [exact (proj2 (material_iff ["geometry"; "tubes"; "materialfin"] _ _ T0) A8_0) |].
      apply bind_some; eexists; split; [exact (proj2 (fields_number r ["geometry"; "shell"; "R_outer"] d _) A9_0) |].
      apply bind_some; eexists; split; [exact (proj2 (fields_number r ["geometry"; "shell"; "R_inner"] d _) A10_0) |].
      apply bind_some; eexists; split; [exact (proj2 (fields_number r ["geometry"; "shell"; "V_header"] d _) A11_0) |].
      apply bind_some; eexists; split; [exact (proj2 (fields_number r ["geometry"; "fins"; "thickness"] d _) A12_0) |].
      apply bind_some; eexists; split; [exact (proj2 (fields_number r ["geometry"; "fins"; "pitch"] d _) A13_0) |].
      apply bind_some; eexists; split; [exact (proj2 (fields_number r ["geometry"; "fins"; "L_fin"] d _) A14_0) |].
      apply bind_some; eexists; split; [exact (proj2 (correlation_iff ["correlation"] _ _ T1) A15_0) |].
      reflexivity.
  Qed.

  Lemma hhx_ni_iff d c :
    de_hhx_ni r d = Some c <-> spells_hhx_ni r d c.
  Proof.
    unfold de_hhx_ni, spells_hhx_ni. split.
    - intros H. unbind H. simpl.
      apply (fields_number r ["R_f"]) in P.
      apply (fields_number r ["L_f"]) in P0.
      apply (fields_number r ["R_regen"]) in P1.
      apply (fields_number r ["D_outer"]) in P2.
      apply (fields_number r ["D_inner"]) in P3.
      apply (fields_number r ["k_f"]) in P4.
      apply (fields_number r ["roughness"]) in P5.
      apply (fields_count r ["N_total"]) in P6.
      apply (fields_number r ["vol_h"]) in P7.
      apply (fields_number r ["R_ins"]) in P8.
      apply (fields_number r ["W_parasitic"]) in P9.
      tauto.
    - intros H. destruct c. simpl in H.
      destruct H as [A0_0 H].
      destruct H as [A1_0 H].
      destruct H as [A2_0 H].
      destruct H as [A3_0 H].
      destruct H as [A4_0 H].
      destruct H as [A5_0 H].
      destruct H as [A6_0 H].
      destruct H as [A7_0 H].
      destruct H as [A8_0 H].
      destruct H as [A9_0 H].
      rename H into A10_0.
      apply bind_some; eexists; split; [exact (proj2 (fields_number r ["R_f"] d _) A0_0) |].
      apply bind_some; eexists; split; [exact (proj2 (fields_number r ["L_f"] d _) A1_0) |].
      apply bind_some; eexists; split; [exact (proj2 (fields_number r ["R_regen"] d _) A2_0) |].
      apply bind_some; eexists; split; [exact (proj2 (fields_number r ["D_outer"] d _) A3_0) |].
      apply bind_some; eexists; split; [exact (proj2 (fields_number r ["D_inner"] d _) A4_0) |].
      apply bind_some; eexists; split; [exact (proj2 (fields_number r ["k_f"] d _) A5_0) |].
      apply bind_some; eexists; split; [exact (proj2 (fields_number r ["roughness"] d _) A6_0) |].
      apply bind_some; eexists; split; [exact (proj2 (fields_count r ["N_total"] d _) A7_0) |].
      apply bind_some; eexists; split; [exact (proj2 (fields_number r ["vol_h"] d _) A8_0) |].
      apply bind_some; eexists; split; [exact (proj2 (fields_number r ["R_ins"] d _) A9_0) |].
      apply bind_some; eexists; split; [exact (proj2 (fields_number r ["W_parasitic"] d _) A10_0) |].
      reflexivity.
  Qed.

  Lemma sinusoidal_iff d c :
    de_sinusoidal r d = Some c <-> spells_sinusoidal r d c.
  Proof.
    unfold de_sinusoidal, spells_sinusoidal. split.
    - intros H. unbind H. simpl.
      apply (fields_number r ["frequency"]) in P.
      apply (fields_number r ["phase_angle"]) in P0.
      apply (fields_number r ["V_swept_c"]) in P1.
      apply (fields_number r ["V_clearance_c"]) in P2.
      apply (fields_number r ["R_c"]) in P3.
      apply (fields_number r ["W_parasitic_c"]) in P4.
      apply (fields_number r ["V_swept_e"]) in P5.
      apply (fields_number r ["V_clearance_e"]) in P6.
      apply (fields_number r ["R_e"]) in P7.
      apply (fields_number r ["W_parasitic_e"]) in P8.
      apply (fields_number r ["Q_parasitic_e"]) in P9.
      tauto.
    - intros H. destruct c. simpl in H.
      destruct H as [A0_0 H].
      destruct H as [A1_0 H].
      destruct H as [A2_0 H].
      destruct H as [A3_0 H].
      destruct H as [A4_0 H].
      destruct H as [A5_0 H].
      destruct H as [A6_0 H].
      destruct H as [A7_0 H].
      destruct H as [A8_0 H].
      destruct H as [A9_0 H].
      rename H into A10_0.
      apply bind_some; eexists; split; [exact (proj2 (fields_number r ["frequency"] d _) A0_0) |].
      apply bind_some; eexists; split; [exact (proj2 (fields_number r ["phase_angle"] d _) A1_0) |].
      apply bind_some; eexists; split; [exact (proj2 (fields_number r ["V_swept_c"] d _) A2_0) |].
      apply bind_some; eexists; split; [exact (proj2 (fields_number r ["V_clearance_c"] d _) A3_0) |].
      apply bind_some; eexists; split; [exact (proj2 (fields_number r ["R_c"] d _) A4_0) |].
      apply bind_some; eexists; split; [exact (proj2 (fields_number r ["W_parasitic_c"] d _) A5_0) |].
      apply bind_some; eexists; split; [exact (proj2 (fields_number r ["V_swept_e"] d _) A6_0) |].
      apply bind_some; eexists; split; [exact (proj2 (fields_number r ["V_clearance_e"] d _) A7_0) |].
      apply bind_some; eexists; split; [exact (proj2 (fields_number r ["R_e"] d _) A8_0) |].
      apply bind_some; eexists; split; [exact (proj2 (fields_number r ["W_parasitic_e"] d _) A9_0) |].
      apply bind_some; eexists; split; [exact (proj2 (fields_number r ["Q_parasitic_e"] d _) A10_0) |].
      reflexivity.
  Qed.

  Lemma rhombic_iff d c :
    de_rhombic r d = Some c <-> spells_rhombic r d c.
  Proof.
    unfold de_rhombic, spells_rhombic. split.
    - intros H. unbind H. simpl.
      apply (fields_number r ["frequency"]) in P.
      apply (fields_number r ["V_clearance_c"]) in P0.
      apply (fields_number r ["R_c"]) in P1.
      apply (fields_number r ["W_parasitic_c"]) in P2.
      apply (fields_number r ["V_clearance_e"]) in P3.
      apply (fields_number r ["R_e"]) in P4.
      apply (fields_number r ["W_parasitic_e"]) in P5.
      apply (fields_number r ["Q_parasitic_e"]) in P6.
      apply (fields_number r ["r_crank"]) in P7.
      apply (fields_number r ["L_conn"]) in P8.
      apply (fields_number r ["eccentricity"]) in P9.
      apply (fields_number r ["D_p"]) in P10.
      apply (fields_number r ["D_d"]) in P11.
      tauto.
    - intros H. destruct c. simpl in H.
      destruct H as [A0_0 H].
      destruct H as [A1_0 H].
      destruct H as [A2_0 H].
      destruct H as [A3_0 H].
      destruct H as [A4_0 H].
      destruct H as [A5_0 H].
      destruct H as [A6_0 H].
      destruct H as [A7_0 H].
      destruct H as [A8_0 H].
      destruct H as [A9_0 H].
      destruct H as [A10_0 H].
      destruct H as [A11_0 H].
      rename H into A12_0.
      apply bind_some; eexists; split; [exact (proj2 (fields_number r ["frequency"] d _) A0_0) |].
      apply bind_some; eexists; split; [exact (proj2 (fields_number r ["V_clearance_c"] d _) A1_0) |].
      apply bind_some; eexists; split; [exact (proj2 (fields_number r ["R_c"] d _) A2_0) |].
      apply bind_some; eexists; split; [exact (proj2 (fields_number r ["W_parasitic_c"] d _) A3_0) |].
      apply bind_some; eexists; split; [exact (proj2 (fields_number r ["V_clearance_e"] d _) A4_0) |].
      apply bind_some; eexists; split; [exact (proj2 (fields_number r ["R_e"] d _) A5_0) |].
      apply bind_some; eexists; split; [exact (proj2 (fields_number r ["W_parasitic_e"] d _) A6_0) |].
      apply bind_some; eexists; split; [exact (proj2 (fields_number r ["Q_parasitic_e"] d _) A7_0) |].
      apply bind_some; eexists; split; [exact (proj2 (fields_number r ["r_crank"] d _) A8_0) |].
      apply bind_some; eexists; split; [exact (proj2 (fields_number r ["L_conn"] d _) A9_0) |].
      apply bind_some; eexists; split; [exact (proj2 (fields_number r ["eccentricity"] d _) A10_0) |].
      apply bind_some; eexists; split; [exact (proj2 (fields_number r ["D_p"] d _) A11_0) |].
      apply bind_some; eexists; split; [exact (proj2 (fields_number r ["D_d"] d _) A12_0) |].
      reflexivity.
  Qed.

  Lemma ws_gpu3_iff d c :
    de_ws_gpu3 r d = Some c <-> spells_ws_gpu3 r d c.
  Proof.
    unfold de_ws_gpu3, spells_ws_gpu3. split.
    - intros H. unbind H. simpl.
      apply (fields_number r ["frequency"]) in P.
      apply (fields_number r ["V_clearance_c"]) in P0.
      apply (fields_number r ["R_c"]) in P1.
      apply (fields_number r ["V_clearance_e"]) in P2.
      apply (fields_number r ["R_e"]) in P3.
      apply (fields_number r ["r_crank"]) in P4.
      apply (fields_number r ["L_conn"]) in P5.
      apply (fields_number r ["eccentricity"]) in P6.
      apply (fields_number r ["D"]) in P7.
      apply (fields_number r ["D_dr"]) in P8.
      apply (fields_number r ["L"]) in P9.
      apply (fields_number r ["h"]) in P10.
      tauto.
    - intros H. destruct c. simpl in H.
      destruct H as [A0_0 H].
      destruct H as [A1_0 H].
      destruct H as [A2_0 H].
      destruct H as [A3_0 H].
      destruct H as [A4_0 H].
      destruct H as [A5_0 H].
      destruct H as [A6_0 H].
      destruct H as [A7_0 H].
      destruct H as [A8_0 H].
      destruct H as [A9_0 H].
      destruct H as [A10_0 H].
      rename H into A11_0.
      apply bind_some; eexists; split; [exact (proj2 (fields_number r ["frequency"] d _) A0_0) |].
      apply bind_some; eexists; split; [exact (proj2 (fields_number r ["V_clearance_c"] d _) A1_0) |].
      apply bind_some; eexists; split; [exact (proj2 (fields_number r ["R_c"] d _) A2_0) |].
      apply bind_some; eexists; split; [exact (proj2 (fields_number r ["V_clearance_e"] d _) A3_0) |].
      apply bind_some; eexists; split; [exact (proj2 (fields_number r ["R_e"] d _) A4_0) |].
      apply bind_some; eexists; split; [exact (proj2 (fields_number r ["r_crank"] d _) A5_0) |].
      apply bind_some; eexists; split; [exact (proj2 (fields_number r ["L_conn"] d _) A6_0) |].
      apply bind_some; eexists; split; [exact (proj2 (fields_number r ["eccentricity"] d _) A7_0) |].
      apply bind_some; eexists; split; [exact (proj2 (fields_number r ["D"] d _) A8_0) |].
      apply bind_some; eexists; split; [exact (proj2 (fields_number r ["D_dr"] d _) A9_0) |].
      apply bind_some; eexists; split; [exact (proj2 (fields_number r ["L"] d _) A10_0) |].
      apply bind_some; eexists; split; [exact (proj2 (fields_number r ["h"] d _) A11_0) |].
      reflexivity.
  Qed.

  Lemma ws_mod2_iff d c :
    tells_apart r ["SS304"; "Multimet"; "StainlessSteel"] ->
    de_ws_mod2 r d = Some c <-> spells_ws_mod2 r d c.
  Proof.
    intros T0. unfold de_ws_mod2, spells_ws_mod2. split.
    - intros H. unbind H. simpl.
      apply (fields_number r ["frequency"]) in P.
      apply (fields_number r ["phaseAngle"]) in P0.
      apply (fields_number r ["D"]) in P1.
      apply (fields_number r ["h"]) in P2.
      apply (fields_number r ["L"]) in P3.
      apply (fields_number r ["stroke"]) in P4.
      apply (fields_number r ["V_clearance_c"]) in P5.
      apply (fields_number r ["R_c"]) in P6.
      apply (fields_number r ["V_clearance_e"]) in P7.
      apply (fields_number r ["R_e"]) in P8.
      apply (material_iff ["material_p"] _ _ T0) in P9.
      apply (material_iff ["material_c"] _ _ T0) in P10.
      apply (fields_number r ["th_pw"]) in P11.
      apply (fields_number r ["th_cw"]) in P12.
      apply (fields_number r ["L_cond"]) in P13.
      apply (fields_number r ["e"]) in P14.
      tauto.
    - intros H. destruct c. simpl in H.
      destruct H as [A0_0 H].
      destruct H as [A1_0 H].
      destruct H as [A2_0 H].
      destruct H as [A3_0 H].
      destruct H as [A4_0 H].
      destruct H as [A5_0 H].
      destruct H as [A6_0 H].
      destruct H as [A7_0 H].
      destruct H as [A8_0 H].
      destruct H as [A9_0 H].
      destruct H as [A10_0 H].
      destruct H as [A11_0 H].
      destruct H as [A12_0 H].
      destruct H as [A13_0 H].
      destruct H as [A14_0 H].
      rename H into A15_0.
      apply bind_some; eexists; split; [exact (proj2 (fields_number r ["frequency"] d _) A0_0) |].
      apply bind_some; eexists; split; [exact (proj2 (fields_number r ["phaseAngle"] d _) A1_0) |].
      apply bind_some; eexists; split; [exact (proj2 (fields_number r ["D"] d _) A2_0) |].
      apply bind_some; eexists; split; [exact (proj2 (fields_number r ["h"] d _) A3_0) |].
      apply bind_some; eexists; split; [exact (proj2 (fields_number r ["L"] d _) A4_0) |].
      apply bind_some; eexists; split; [exact (proj2 (fields_number r ["stroke"] d _) A5_0) |].
      apply bind_some; eexists; split; [exact (proj2 (fields_number r ["V_clearance_c"] d _) A6_0) |].
      apply bind_some; eexists; split; [exact (proj2 (fields_number r ["R_c"] d _) A7_0) |].
      apply bind_some; eexists; split; [exact (proj2 (fields_number r ["V_clearance_e"] d _) A8_0) |].
      apply bind_some; eexists; split; [exact (proj2 (fields_number r ["R_e"] d _) A9_0) |].
      apply bind_some; eexists; split; [exact (proj2 (material_iff ["material_p"] _ _ T0) A10_0) |].
      apply bind_some; eexists; split; [exact (proj2 (material_iff ["material_c"] _ _ T0) A11_0) |].
      apply bind_some; eexists; split; [exact (proj2 (fields_number r ["th_pw"] d _) A12_0) |].
      apply bind_some; eexists; split; [exact (proj2 (fields_number r ["th_cw"] d _) A13_0) |].
      apply bind_some; eexists; split; [exact (proj2 (fields_number r ["L_cond"] d _) A14_0) |].
      apply bind_some; eexists; split; [exact (proj2 (fields_number r ["e"] d _) A15_0) |].
      reflexivity.
  Qed.
End Records.

Ltac in_list := first [left; reflexivity | right; in_list].

Section Documents.
  Context {V F : Type}.
  Variable r : Reader V F.
  Notation D := (doc V).
  Hypothesis T : tells_names_apart r.

  Lemma t_fluid : tells_apart r ["hydrogen"; "helium"]. Proof. apply T. Qed.
  Lemma t_hx : tells_apart r ["fixed_approach"; "fixed_conductance"; "g_p_u3"; "mod2"; "g_p_u3_n_i"; "mod2_n_i"].
  Proof. apply T. Qed.
  Lemma t_ws : tells_apart r ["sinusoidal"; "rhombic"; "g_p_u3"; "mod2"]. Proof. apply T. Qed.
  Lemma t_material : tells_apart r ["SS304"; "Multimet"; "StainlessSteel"]. Proof. apply T. Qed.
  Lemma t_correlation : tells_apart r ["Oscillating"; "Steady"]. Proof. apply T. Qed.
  Lemma t_option : tells_apart r ["Hydrogen"; "Helium"]. Proof. apply T. Qed.

  Ltac fwd I C iffs :=
    simpl in I; repeat (destruct I as [I | I];
      [injection I as <- <-;
       let k := fresh "k" in let d' := fresh "d'" in let P := fresh "P" in let E := fresh "E" in
       let Q := fresh "Q" in let a := fresh "a" in
       destruct C as (k & d' & P & E & Q); apply variant_some in Q; destruct Q as (a & Q & <-);
       iffs Q; exists k, d'; split; [exact P | split; [exact E | exact Q]] |]);
    contradiction.
  Ltac bwd H iffs :=
    let k := fresh "k" in let d' := fresh "d'" in let P := fresh "P" in let E := fresh "E" in
    let Q := fresh "Q" in
    destruct H as (k & d' & P & E & Q); iffs Q;
    match type of E with rd_fold _ _ = rd_fold _ ?n => exists n; eexists; split; [in_list |] end;
    exists k, d'; split; [exact P | split; [exact E |]]; apply variant_some; eexists; split; [exact Q | reflexivity].

  Lemma fluid_model_iff d m : de_fluid_model r d = Some m <-> text r d ["model"] (fluid_model_name m).
  Proof.
    unfold de_fluid_model, de_internal_unit. rewrite bind_some. split.
    - intros (s & A & B). apply field_some in A. destruct A as (d' & A & L).
      apply leaf_some in L. destruct L as (v & -> & L). exists v. split; [exact A |].
      rewrite L. f_equal. destruct (pick_sound _ _ _ _ B) as (n & I & ->). simpl in I.
      repeat (destruct I as [I | I]; [injection I as <- <-; reflexivity |]); contradiction.
    - intros (v & A & L). exists (fluid_model_name m). split.
      + apply field_some. exists (Leaf v). split; [exact A | exact L].
      + destruct m; reflexivity.
  Qed.
  Ltac fluid_in Q := apply fluid_model_iff in Q.
  Lemma fluid_iff d c : de_fluid r d = Some c <-> spells_fluid r d [] c.
  Proof.
    unfold de_fluid. rewrite external by (split; [no_dup | exact t_fluid]). split.
    - intros (n & read & I & C). fwd I C fluid_in.
    - intros H. destruct c; simpl in H; bwd H fluid_in.
  Qed.

  Ltac chx_in Q :=
    first [apply chx_fa_iff in Q | apply chx_fc_iff in Q | apply chx_gpu3_iff in Q
          | apply (chx_mod2_iff r _ _ t_material t_correlation) in Q].
  Lemma chx_iff d c : de_chx r d = Some c <-> spells_chx r d [] c.
  Proof.
    unfold de_chx. rewrite external by (split; [no_dup | apply (tells_sub r _ _ t_hx); sub_names]). split.
    - intros (n & read & I & C). fwd I C chx_in.
    - intros H. destruct c; simpl in H; bwd H chx_in.
  Qed.
  Ltac regen_in Q :=
    first [apply regen_fa_iff in Q | apply regen_fc_iff in Q | apply (regen_gpu3_iff r _ _ t_material) in Q
          | apply (regen_mod2_iff r _ _ t_material t_correlation) in Q].
  Lemma regen_iff d c : de_regen r d = Some c <-> spells_regen r d [] c.
  Proof.
    unfold de_regen. rewrite external by (split; [no_dup | apply (tells_sub r _ _ t_hx); sub_names]). split.
    - intros (n & read & I & C). fwd I C regen_in.
    - intros H. destruct c; simpl in H; bwd H regen_in.
  Qed.
  Ltac hhx_in Q :=
    first [apply hhx_fa_iff in Q | apply hhx_fc_iff in Q | apply hhx_gpu3_iff in Q
          | apply (hhx_mod2_iff r _ _ t_material t_correlation) in Q | apply hhx_ni_iff in Q].
  Lemma hhx_iff d c : de_hhx r d = Some c <-> spells_hhx r d [] c.
  Proof.
    unfold de_hhx. rewrite external by (split; [no_dup | exact t_hx]). split.
    - intros (n & read & I & C). fwd I C hhx_in.
    - intros H. destruct c; simpl in H; bwd H hhx_in.
  Qed.
  Ltac ws_in Q :=
    first [apply sinusoidal_iff in Q | apply rhombic_iff in Q | apply ws_gpu3_iff in Q
          | apply (ws_mod2_iff r _ _ t_material) in Q].
  Lemma ws_iff d c : de_ws r d = Some c <-> spells_ws r d [] c.
  Proof.
    unfold de_ws. rewrite external by (split; [no_dup | exact t_ws]). split.
    - intros (n & read & I & C). fwd I C ws_in.
    - intros H. destruct c; simpl in H; bwd H ws_in.
  Qed.

  Lemma fluid_at d path c : spells_fluid r d path c <-> exists d', at_path d path = Some d' /\ spells_fluid r d' [] c.
  Proof. destruct c; apply chooses_at. Qed.
  Lemma chx_at d path c : spells_chx r d path c <-> exists d', at_path d path = Some d' /\ spells_chx r d' [] c.
  Proof. destruct c; apply chooses_at. Qed.
  Lemma regen_at d path c : spells_regen r d path c <-> exists d', at_path d path = Some d' /\ spells_regen r d' [] c.
  Proof. destruct c; apply chooses_at. Qed.
  Lemma hhx_at d path c : spells_hhx r d path c <-> exists d', at_path d path = Some d' /\ spells_hhx r d' [] c.
  Proof. destruct c; apply chooses_at. Qed.
  Lemma ws_at d path c : spells_ws r d path c <-> exists d', at_path d path = Some d' /\ spells_ws r d' [] c.
  Proof. destruct c; apply chooses_at. Qed.

  Lemma child_some (d : D) k path d' :
    at_path d (k :: path) = Some d' <-> exists d1, child d k = Some d1 /\ at_path d1 path = Some d'.
  Proof.
    simpl. destruct (child d k) as [d1 |]; split.
    - intros H. exists d1. auto.
    - intros (d2 & E & H). injection E as ->. exact H.
    - discriminate.
    - intros (d2 & E & _). discriminate E.
  Qed.

  Theorem config_spelled d c : de_config r d = Some c <-> spells r d c.
  Proof.
    split.
    - intros H. unfold de_config in H. unbind H.
      rewrite field_child in P. rewrite field_child in P0. rewrite field_child in P1. apply bind_some in P. apply bind_some in P0. apply bind_some in P1.
      destruct P as (de & Ee & P), P0 as (ds & Es & P0), P1 as (dc & Ec & P1).
      unfold de_engine in P. unbind P. rewrite field_child in P2. rewrite field_child in P3. apply bind_some in P2. apply bind_some in P3.
      destruct P2 as (df & Ef & P2), P3 as (dp & Ep & P3).
      unfold de_components in P3. unbind P3.
      rewrite field_child in P. rewrite field_child in P4. rewrite field_child in P5. rewrite field_child in P6. apply bind_some in P. apply bind_some in P4. apply bind_some in P5. apply bind_some in P6.
      destruct P as (d1 & E1 & P), P4 as (d2 & E2 & P4), P5 as (d3 & E3 & P5), P6 as (d4 & E4 & P6).
      unfold spells. simpl.
      repeat split.
      + apply fluid_at. exists df. simpl. rewrite Ee, Ef. split; [reflexivity | apply fluid_iff; exact P2].
      + apply chx_at. exists d1. simpl. rewrite Ee, Ep, E1. split; [reflexivity | apply chx_iff; exact P].
      + apply hhx_at. exists d2. simpl. rewrite Ee, Ep, E2. split; [reflexivity | apply hhx_iff; exact P4].
      + apply regen_at. exists d3. simpl. rewrite Ee, Ep, E3. split; [reflexivity | apply regen_iff; exact P5].
      + apply ws_at. exists d4. simpl. rewrite Ee, Ep, E4. split; [reflexivity | apply ws_iff; exact P6].
      + exists ds. rewrite Es. split; [reflexivity | apply solver_iff; exact P0].
      + exists dc. rewrite Ec. split; [reflexivity | apply conditions_iff; exact P1].
    - intros (H1 & H2 & H3 & H4 & H5 & (ds & Es & H6) & (dc & Ec & H7)).
      apply fluid_at in H1. apply chx_at in H2. apply hhx_at in H3. apply regen_at in H4. apply ws_at in H5.
      destruct H1 as (df & Ef & H1), H2 as (d1 & E1 & H2), H3 as (d2 & E2 & H3), H4 as (d3 & E3 & H4),
        H5 as (d4 & E4 & H5).
      apply fluid_iff in H1. apply chx_iff in H2. apply hhx_iff in H3. apply regen_iff in H4. apply ws_iff in H5.
      apply solver_iff in H6. apply conditions_iff in H7.
      apply child_some in Ef. destruct Ef as (de & Ee & Ef).
      simpl in Ef, E1, E2, E3, E4, Es, Ec. rewrite Ee in E1, E2, E3, E4.
      destruct (child de "fluid") as [df' |] eqn:Ef'; [injection Ef as -> | discriminate].
      destruct (child de "components") as [dp |] eqn:Ep; [| discriminate].
      destruct (child dp "chx") as [? |] eqn:C1; [injection E1 as -> | discriminate].
      destruct (child dp "hhx") as [? |] eqn:C2; [injection E2 as -> | discriminate].
      destruct (child dp "regen") as [? |] eqn:C3; [injection E3 as -> | discriminate].
      destruct (child dp "ws") as [? |] eqn:C4; [injection E4 as -> | discriminate].
      destruct (child d "solver") as [? |] eqn:C5; [injection Es as -> | discriminate].
      destruct (child d "conditions") as [? |] eqn:C6; [injection Ec as -> | discriminate].
      unfold de_config. rewrite !field_child, Ee, C5, C6. simpl.
      unfold de_engine. rewrite !field_child, Ef', Ep. simpl. rewrite H1. simpl.
      unfold de_components. rewrite !field_child, C1, C2, C3, C4. simpl. rewrite H2, H3, H4, H5. simpl.
      rewrite H6, H7. simpl. destruct c as [[? []] ? ?]. reflexivity.
  Qed.
End Documents.

(** ** Legacy documents *)
Section LegacyDocuments.
  Context {V F : Type}.
  Variables direct buffered : Reader V F.
  Notation D := (doc V).

  Lemma first_true a b (l : list (string * D)) :
    first_of a b l = true -> In a (map fst l) -> precedes a b (Table l).
  Proof.
    induction l as [| [k d] l IH]; simpl; [contradiction |].
    destruct (String.eqb_spec k a) as [-> | N].
    - intros _ _. exists [], d, l. split; [reflexivity | intros []].
    - destruct (String.eqb_spec k b) as [-> | N']; [discriminate |].
      intros H [I | I]; [contradiction |].
      destruct (IH H I) as (l1 & x & l2 & E & A). injection E as ->.
      exists ((k, d) :: l1), x, l2. split; [reflexivity |]. simpl. intros [E | E]; [exact (N' E) | exact (A E)].
  Qed.
  Lemma first_false a b (l : list (string * D)) :
    first_of a b l = false -> precedes b a (Table l).
  Proof.
    induction l as [| [k d] l IH]; simpl; [discriminate |].
    destruct (String.eqb_spec k a) as [-> | N]; [discriminate |].
    destruct (String.eqb_spec k b) as [-> | N'].
    - intros _. exists [], d, l. split; [reflexivity | intros []].
    - intros H. destruct (IH H) as (l1 & x & l2 & E & A). injection E as ->.
      exists ((k, d) :: l1), x, l2. split; [reflexivity |]. simpl. intros [E | E]; [exact (N E) | exact (A E)].
  Qed.
  Lemma precedes_first a b (l : list (string * D)) : precedes a b (Table l) -> first_of a b l = true.
  Proof.
    intros (l1 & x & l2 & E & A). injection E as ->.
    induction l1 as [| [k d] l1 IH]; simpl; [rewrite String.eqb_refl; reflexivity |].
    simpl in A. destruct (String.eqb_spec k a) as [-> | N]; [reflexivity |].
    destruct (String.eqb_spec k b) as [-> | N']; [exfalso; apply A; left; reflexivity |].
    apply IH. intro H. apply A. right. exact H.
  Qed.
  Lemma precedes_second a b (l : list (string * D)) : a <> b -> precedes b a (Table l) -> first_of a b l = false.
  Proof.
    intros AB (l1 & x & l2 & E & A). injection E as ->.
    induction l1 as [| [k d] l1 IH]; simpl.
    - destruct (String.eqb_spec b a) as [E | _]; [exfalso; exact (AB (eq_sym E)) |].
      rewrite String.eqb_refl. reflexivity.
    - simpl in A. destruct (String.eqb_spec k a) as [-> | N]; [exfalso; apply A; left; reflexivity |].
      destruct (String.eqb_spec k b) as [-> | N']; [reflexivity |].
      apply IH. intro H. apply A. right. exact H.
  Qed.
  Lemma child_in (l : list (string * D)) k d : child (Table l) k = Some d -> In k (map fst l).
  Proof.
    simpl. destruct (filter _ l) as [| [k' d'] ?] eqn:E; [discriminate |]. intros _.
    assert (I : In (k', d') (filter (fun kd => String.eqb (fst kd) k) l)) by (rewrite E; left; reflexivity).
    apply filter_In in I. destruct I as [I Q]. simpl in Q. apply String.eqb_eq in Q. subst k'.
    exact (in_map fst _ _ I).
  Qed.
  Lemma reads_iff (l : list (string * D)) r :
    In "model" (map fst l) ->
    (if first_of "model" "params" l then direct else buffered) = r <-> reads direct buffered (Table l) r.
  Proof.
    intros I. unfold reads. split.
    - destruct (first_of "model" "params" l) eqn:E; intros <-.
      + left. split; [exact (first_true _ _ _ E I) | reflexivity].
      + right. split; [exact (first_false _ _ _ E) | reflexivity].
    - intros [[P ->] | [P ->]].
      + rewrite (precedes_first _ _ _ P). reflexivity.
      + rewrite (precedes_second "model" "params" _ ltac:(discriminate) P). reflexivity.
  Qed.
  Lemma absent_iff k (l : list (string * D)) : absent k l = true <-> ~ In k (map fst l).
  Proof.
    unfold absent. rewrite negb_true_iff. split.
    - intros E I. apply in_map_iff in I. destruct I as ([k' d] & Ek & I). simpl in Ek. subst k'.
      assert (X : existsb (fun '(k', _) => String.eqb k' k) l = true).
      { apply existsb_exists. exists (k, d). split; [exact I | apply String.eqb_refl]. }
      congruence.
    - intros N. destruct (existsb _ l) eqn:E; [| reflexivity].
      apply existsb_exists in E. destruct E as ([k' d] & I & Q). apply String.eqb_eq in Q. subst k'.
      exfalso. apply N. exact (in_map fst _ _ I).
  Qed.

  Lemma text_some (r : Reader V F) (d : D) k s : field k (de_str r) d = Some s <-> text r d [k] s.
  Proof.
    rewrite field_some. unfold text, de_str. split.
    - intros (d' & A & B). apply leaf_some in B. destruct B as (v & -> & B). exists v. split; assumption.
    - intros (v & A & B). exists (Leaf v). split; [exact A | exact B].
  Qed.

  Lemma adjacent {A} (cases : list (string * ((Reader V F -> D -> option A) + A))) d x :
    NoDup (map fst cases) ->
    de_adjacent direct buffered "model" "params" cases d = Some x <->
    exists n case, In (n, case) cases /\
      match case with
      | inl read => model_params direct buffered d n (fun r d' => read r d' = Some x)
      | inr a => a = x /\ text direct d ["model"] n /\
          ((forall l, d = Table l -> ~ In "params" (map fst l)) \/
           exists r v, at_path d ["params"] = Some (Leaf v) /\ reads direct buffered d r /\ rd_nil r v = true)
      end.
  Proof.
    intros ND.
    assert (Pick : forall n c, In (n, c) cases <-> pick (fun s => s) cases n = Some c).
    { intros n c. split.
      - intros I. apply (pick_complete (fun s => s) cases n c n ND); [intros ? ? _ _ E; exact E | exact I | reflexivity].
      - intros H. destruct (pick_sound _ _ _ _ H) as (m & I & ->). exact I. }
    destruct d as [v | l].
    { simpl. split; [discriminate |]. intros (n & [read | a] & I & H); destruct H as [H1 H2].
      - destruct H1 as (w & E & _). discriminate E.
      - destruct H2 as [(w & E & _) _]. discriminate E. }
    unfold de_adjacent. rewrite bind_some. split.
    - intros (s & T & H). apply bind_some in H. destruct H as (c & P & H). cbv zeta in H.
      apply text_some in T. apply Pick in P. exists s, c. split; [exact P |].
      assert (I : In "model" (map fst l)).
      { destruct T as (v & T & _). simpl in T. fold (child (Table l) "model") in T.
        destruct (child (Table l) "model") as [d' |] eqn:E; [exact (child_in _ _ _ E) | discriminate T]. }
      destruct c as [read | a].
      + apply bind_some in H. destruct H as (d' & C & H). apply field_some in C. destruct C as (d1 & C & K).
        injection K as ->. split; [exact T |].
        eexists; exists d'. split; [exact C |]. split; [exact (proj1 (reads_iff l _ I) eq_refl) | exact H].
      + destruct (absent "params" l) eqn:Ab.
        * injection H as ->. split; [reflexivity |]. split; [exact T |]. left. intros l' E. injection E as <-.
          apply absent_iff. exact Ab.
        * apply bind_some in H. destruct H as (u & C & H). injection H as ->.
          split; [reflexivity |]. split; [exact T |]. right.
          apply field_some in C. destruct C as (d1 & C & K). apply leaf_some in K. destruct K as (v & -> & K).
          eexists; exists v. split; [exact C |]. split; [exact (proj1 (reads_iff l _ I) eq_refl) |].
          destruct (rd_nil _ v); [reflexivity | discriminate].
    - intros (n & c & P & H). apply Pick in P.
      assert (T : text direct (Table l) ["model"] n).
      { destruct c as [read | a]; [exact (proj1 H) | exact (proj1 (proj2 H))]. }
      assert (I : In "model" (map fst l)).
      { destruct T as (v & T & _). simpl in T. fold (child (Table l) "model") in T.
        destruct (child (Table l) "model") as [d' |] eqn:E; [exact (child_in _ _ _ E) | discriminate T]. }
      exists n. split; [apply text_some; exact T |].
      apply bind_some. exists c. split; [exact P |]. cbv zeta.
      destruct c as [read | a].
      + destruct H as (_ & r & d' & C & Rd & H). apply bind_some. exists d'. split.
        * apply field_some. exists d'. split; [exact C | reflexivity].
        * rewrite (proj2 (reads_iff l r I) Rd). exact H.
      + destruct H as (-> & _ & [N | (r & v & C & Rd & H)]).
        * rewrite (proj2 (absent_iff "params" l) (N l eq_refl)). reflexivity.
        * rewrite (proj2 (reads_iff l r I) Rd).
          assert (X : absent "params" l = false).
          { destruct (absent "params" l) eqn:E; [| reflexivity]. exfalso.
            apply (proj1 (absent_iff _ _) E). simpl in C. fold (child (Table l) "params") in C.
            destruct (child (Table l) "params") eqn:E'; [exact (child_in _ _ _ E') | discriminate C]. }
          rewrite X. apply bind_some. exists tt. split; [| reflexivity].
          apply field_some. exists (Leaf v). split; [exact C |]. simpl. rewrite H. reflexivity.
  Qed.

  Hypothesis Td : tells_names_apart direct.
  Hypothesis Tb : tells_names_apart buffered.

  Lemma reads_tells d r : reads direct buffered d r -> tells_names_apart r.
  Proof. intros [[_ ->] | [_ ->]]; assumption. Qed.

  Lemma option_iff (r : Reader V F) (d : D) g : tells_names_apart r -> de_legacy_gas r d = Some g <-> names r d ["name"] (fluid_option_name g).
  Proof. intros T. apply (fluid_option_iff r ["name"] d g (t_option r T)). Qed.

  Ltac fwd I C iffs :=
    simpl in I; repeat (destruct I as [I | I];
      [injection I as <- <-;
       let r := fresh "r" in let d' := fresh "d'" in let P := fresh "P" in let R := fresh "R" in
       let Q := fresh "Q" in let a := fresh "a" in let T := fresh "T" in let W := fresh "W" in
       destruct C as (T & r & d' & P & R & Q); apply bind_some in Q; destruct Q as (a & Q & W); injection W as <-;
       pose proof (reads_tells _ _ R) as W;
       iffs W Q; split; [exact T |]; exists r, d'; split; [exact P | split; [exact R | exact Q]] |]);
    contradiction.
  Ltac bwd H iffs :=
    let r := fresh "r" in let d' := fresh "d'" in let P := fresh "P" in let R := fresh "R" in
    let Q := fresh "Q" in let T := fresh "T" in let W := fresh "W" in
    destruct H as (T & r & d' & P & R & Q); pose proof (reads_tells _ _ R) as W; iffs W Q;
    match type of T with text _ _ _ ?n => exists n; eexists; split; [in_list |] end;
    split; [exact T |]; exists r, d'; split; [exact P | split; [exact R |]];
    apply bind_some; eexists; split; [exact Q | reflexivity].

  Ltac option_in W Q := apply (option_iff _ _ _ W) in Q.
  Lemma legacy_fluid_iff d c : de_legacy_fluid direct buffered d = Some c <-> spells_legacy_fluid direct buffered d c.
  Proof.
    unfold de_legacy_fluid. rewrite adjacent by no_dup. split.
    - intros (n & case & I & C). simpl in I. destruct I as [I | I].
      + injection I as <- <-. destruct C as (<- & T & C). split; [exact T | exact C].
      + fwd I C option_in.
    - intros H. destruct c; simpl in H.
      + exists "Hydrogen"; eexists; split; [in_list |]. split; [reflexivity | exact H].
      + bwd H option_in.
      + bwd H option_in.
  Qed.

  Ltac chx_in W Q :=
    first [apply chx_fa_iff in Q | apply chx_fc_iff in Q | apply chx_gpu3_iff in Q
          | apply (chx_mod2_iff _ _ _ (t_material _ W) (t_correlation _ W)) in Q].
  Lemma legacy_chx_iff d c : de_legacy_chx direct buffered d = Some c <-> spells_legacy_chx direct buffered d c.
  Proof.
    unfold de_legacy_chx. rewrite adjacent by no_dup. split.
    - intros (n & case & I & C). fwd I C chx_in.
    - intros H. destruct c; simpl in H; bwd H chx_in.
  Qed.
  Ltac regen_in W Q :=
    first [apply regen_fa_iff in Q | apply regen_fc_iff in Q | apply (regen_gpu3_iff _ _ _ (t_material _ W)) in Q
          | apply (regen_mod2_iff _ _ _ (t_material _ W) (t_correlation _ W)) in Q].
  Lemma legacy_regen_iff d c : de_legacy_regen direct buffered d = Some c <-> spells_legacy_regen direct buffered d c.
  Proof.
    unfold de_legacy_regen. rewrite adjacent by no_dup. split.
    - intros (n & case & I & C). fwd I C regen_in.
    - intros H. destruct c; simpl in H; bwd H regen_in.
  Qed.
  Ltac hhx_in W Q :=
    first [apply hhx_fa_iff in Q | apply hhx_fc_iff in Q | apply hhx_gpu3_iff in Q
          | apply (hhx_mod2_iff _ _ _ (t_material _ W) (t_correlation _ W)) in Q | apply hhx_ni_iff in Q].
  Lemma legacy_hhx_iff d c : de_legacy_hhx direct buffered d = Some c <-> spells_legacy_hhx direct buffered d c.
  Proof.
    unfold de_legacy_hhx. rewrite adjacent by no_dup. split.
    - intros (n & case & I & C). fwd I C hhx_in.
    - intros H. destruct c; simpl in H; bwd H hhx_in.
  Qed.
  Ltac ws_in W Q :=
    first [apply sinusoidal_iff in Q | apply rhombic_iff in Q | apply ws_gpu3_iff in Q
          | apply (ws_mod2_iff _ _ _ (t_material _ W)) in Q].
  Lemma legacy_ws_iff d c : de_legacy_ws direct buffered d = Some c <-> spells_legacy_ws direct buffered d c.
  Proof.
    unfold de_legacy_ws. rewrite adjacent by no_dup. split.
    - intros (n & case & I & C). fwd I C ws_in.
    - intros H. destruct c; simpl in H; bwd H ws_in.
  Qed.

  Lemma in_field {A} k (read : D -> option A) (spec : D -> A -> Prop) d x :
    (forall d' y, read d' = Some y <-> spec d' y) ->
    field k read d = Some x <-> exists d', at_path d [k] = Some d' /\ spec d' x.
  Proof.
    intros E. rewrite field_some. split; intros (d' & P & Q); exists d'; (split; [exact P | apply E; exact Q]).
  Qed.
  Theorem legacy_spelled d c : de_legacy direct buffered d = Some c <-> spells_legacy direct buffered d c.
  Proof.
    pose proof (in_field "fluid" _ _ d (lg_fluid c) legacy_fluid_iff) as E1.
    pose proof (in_field "ws" _ _ d (lg_ws c) legacy_ws_iff) as E2.
    pose proof (in_field "chx" _ _ d (lg_chx c) legacy_chx_iff) as E3.
    pose proof (in_field "regen" _ _ d (lg_regen c) legacy_regen_iff) as E4.
    pose proof (in_field "hhx" _ _ d (lg_hhx c) legacy_hhx_iff) as E5.
    pose proof (in_field "solver" _ _ d (lg_solver c) (legacy_solver_iff direct)) as E6.
    pose proof (in_field "conditions" _ _ d (lg_conditions c) (legacy_conditions_iff direct)) as E7.
    unfold spells_legacy. rewrite <- E1, <- E2, <- E3, <- E4, <- E5, <- E6, <- E7. clear.
    unfold de_legacy. split.
    - intros H. unbind H. simpl. repeat (split; [assumption |]). assumption.
    - intros (-> & -> & -> & -> & -> & -> & ->). simpl. destruct c; reflexivity.
  Qed.
End LegacyDocuments.
