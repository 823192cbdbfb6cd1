(** * The order of entries in a configuration document *)
From Coq Require Import ZArith NArith List String Bool Permutation.
From Verif Require Import Num ModelTypes ModelWs ModelHx ModelStateEq ModelEngine ModelApi ModelSerde SpecSerde PolySerde.
Import ListNotations.
Local Open Scope string_scope.

Section Order.
  Context {V F : Type}.
  Notation D := (doc V).

  Definition same_entry (a b : string * D) : Prop := fst a = fst b /\ reordered (snd a) (snd b).

  Lemma filter_same k l l' :
    Forall2 same_entry l l' ->
    Forall2 same_entry (filter (fun kd => String.eqb (fst kd) k) l) (filter (fun kd => String.eqb (fst kd) k) l').
  Proof.
    induction 1 as [| a b l l' [E R] H IH]; simpl; [constructor |].
    rewrite E. destruct (String.eqb (fst b) k); [constructor; [split; assumption | exact IH] | exact IH].
  Qed.
  Lemma filter_permutation {A} (f : A -> bool) l l' : Permutation l l' -> Permutation (filter f l) (filter f l').
  Proof.
    induction 1 as [| x l l' H IH | x y l | l l' l'' H1 IH1 H2 IH2]; simpl.
    - constructor.
    - destruct (f x); [constructor; exact IH | exact IH].
    - destruct (f x), (f y); try constructor; apply Permutation_refl.
    - exact (Permutation_trans IH1 IH2).
  Qed.
  Lemma single_same (l l' l'' : list (string * D)) :
    Forall2 same_entry l l' -> Permutation l' l'' ->
    match l, l'' with
    | [a], [b] => same_entry a b
    | [a], _ => False
    | _, [b] => False
    | _, _ => True
    end.
  Proof.
    intros H P. assert (L : List.length l = List.length l'').
    { rewrite <- (Permutation_length P). clear P. induction H; simpl; [reflexivity | f_equal; assumption]. }
    destruct l as [| a [| a' l]], l'' as [| b [| b' l'']]; try exact I; try discriminate L.
    apply Permutation_sym, Permutation_length_1_inv in P. subst l'. inversion H; subst. assumption.
  Qed.
  Lemma child_reordered (d d' : D) k :
    reordered d d' ->
    match child d k, child d' k with Some a, Some b => reordered a b | None, None => True | _, _ => False end.
  Proof.
    intros [v | l l' l'' H P]; simpl; [exact I |].
    pose proof (single_same _ _ _ (filter_same k _ _ H) (filter_permutation (fun kd => String.eqb (fst kd) k) _ _ P)) as S.
    destruct (filter _ l) as [| [k1 d1] [| ? ?]], (filter _ l'') as [| [k2 d2] [| ? ?]];
      try exact I; try contradiction. exact (proj2 S).
  Qed.

  (** an entry that is not asked for *)
  Lemma child_extra (l1 l2 : list (string * D)) k x k' :
    k <> k' -> child (Table (l1 ++ (k, x) :: l2)%list) k' = child (Table (l1 ++ l2)%list) k'.
  Proof.
    intros N. simpl. rewrite !filter_app. simpl.
    destruct (String.eqb_spec k k') as [E | _]; [contradiction | reflexivity].
  Qed.
  Theorem config_extra (r : Reader V F) l1 l2 k x :
    k <> "engine" -> k <> "solver" -> k <> "conditions" ->
    de_config r (Table (l1 ++ (k, x) :: l2)%list) = de_config r (Table (l1 ++ l2)%list).
  Proof.
    intros A B C. unfold de_config. rewrite !field_child, !child_extra by assumption. reflexivity.
  Qed.

  Definition unordered {A} (read : D -> option A) : Prop := forall d d', reordered d d' -> read d = read d'.
  Lemma bind_ext {A B} (o o' : option A) (f g : A -> option B) : o = o' -> (forall a, f a = g a) -> bind o f = bind o' g.
  Proof. intros <- E. destruct o; simpl; [apply E | reflexivity]. Qed.
  Lemma field_unordered {A} k (read : D -> option A) : unordered read -> unordered (field k read).
  Proof.
    intros U d d' R. rewrite !field_child. pose proof (child_reordered d d' k R) as C.
    destruct (child d k), (child d' k); try contradiction; [exact (U _ _ C) | reflexivity].
  Qed.
  Lemma fields_unordered {A} path (read : D -> option A) : unordered read -> unordered (fields path read).
  Proof. intros U. induction path as [| k path IH]; simpl; [exact U | exact (field_unordered k _ IH)]. Qed.
  Lemma leaf_unordered {A} (read : V -> option A) : unordered (de_leaf read).
  Proof. intros d d' [v | l l' l'' _ _]; reflexivity. Qed.

  Section Reading.
  Variable r : Reader V F.
  Hypothesis U : unit_unordered r.

  Lemma f64_unordered : unordered (de_f64 r). Proof. apply leaf_unordered. Qed.
  Lemma u32_unordered : unordered (de_u32 r). Proof. apply leaf_unordered. Qed.
  Lemma str_unordered : unordered (de_str r). Proof. apply leaf_unordered. Qed.
  Lemma unit_enum_unordered {A} (cases : list (string * A)) : unordered (de_unit_enum r cases).
  Proof. intros d d' R. unfold de_unit_enum. rewrite (U d d' R). reflexivity. Qed.
  Lemma variant_unordered {A B} (read : D -> option A) (con : A -> B) : unordered read -> unordered (variant read con).
  Proof. intros H d d' R. unfold variant. rewrite (H d d' R). reflexivity. Qed.
  Lemma pick_unordered {A} fold (cases : list (string * (D -> option A))) k read :
    (forall n f, In (n, f) cases -> unordered f) -> pick fold cases k = Some read -> unordered read.
  Proof. intros H P. destruct (pick_sound _ _ _ _ P) as (n & I & _). exact (H n read I). Qed.
  Lemma external_unordered {A} (cases : list (string * (D -> option A))) :
    (forall n f, In (n, f) cases -> unordered f) -> unordered (de_external r cases).
  Proof.
    intros H d d' [v | l l' l'' S P]; [reflexivity |].
    pose proof (single_same _ _ _ S P) as E.
    destruct l as [| [k1 d1] [| ? ?]], l'' as [| [k2 d2] [| ? ?]]; try reflexivity; try contradiction.
    destruct E as [E R]. simpl in E, R |- *. subst k2.
    destruct (pick (rd_fold r) cases k1) as [read |] eqn:Q; [| reflexivity]. simpl.
    exact (pick_unordered _ _ _ _ H Q d1 d2 R).
  Qed.

  Hint Resolve f64_unordered u32_unordered str_unordered unit_enum_unordered : unord.
  Ltac record := intros d d' R; repeat (apply bind_ext; [first [apply fields_unordered; [solve [auto with unord] | exact R] | apply field_unordered; [solve [auto with unord] | exact R]] | intro]); reflexivity.

  Lemma ode_solver_unordered : unordered (de_ode_solver r). Proof. apply unit_enum_unordered. Qed.
  Lemma coolant_unordered : unordered (de_coolant r). Proof. apply unit_enum_unordered. Qed.
  Lemma material_unordered : unordered (de_material r). Proof. apply unit_enum_unordered. Qed.
  Lemma chx2_fluid_unordered : unordered (de_chx2_fluid r). Proof. apply unit_enum_unordered. Qed.
  Lemma correlation_unordered : unordered (de_correlation r). Proof. apply unit_enum_unordered. Qed.
  Lemma friction_unordered : unordered (de_friction r). Proof. apply unit_enum_unordered. Qed.
  Lemma jfactor_unordered : unordered (de_jfactor r). Proof. apply unit_enum_unordered. Qed.
  Lemma fluid_option_unordered : unordered (de_fluid_option r). Proof. apply unit_enum_unordered. Qed.
  Hint Resolve ode_solver_unordered coolant_unordered material_unordered chx2_fluid_unordered correlation_unordered friction_unordered jfactor_unordered fluid_option_unordered : unord.
  Lemma tolerance_unordered : unordered (de_tolerance r). Proof. record. Qed.
  Hint Resolve tolerance_unordered : unord.
  Lemma inner_loop_unordered : unordered (de_inner_loop r). Proof. record. Qed.
  Hint Resolve inner_loop_unordered : unord.
  Lemma outer_loop_unordered : unordered (de_outer_loop r). Proof. record. Qed.
  Hint Resolve outer_loop_unordered : unord.
  Lemma ode_unordered : unordered (de_ode r). Proof. record. Qed.
  Hint Resolve ode_unordered : unord.
  Lemma solver_unordered : unordered (de_solver r). Proof. record. Qed.
  Hint Resolve solver_unordered : unord.
  Lemma conditions_unordered : unordered (de_conditions r). Proof. record. Qed.
  Hint Resolve conditions_unordered : unord.
  Lemma legacy_solver_unordered : unordered (de_legacy_solver r). Proof. record. Qed.
  Hint Resolve legacy_solver_unordered : unord.
  Lemma legacy_conditions_unordered : unordered (de_legacy_conditions r). Proof. record. Qed.
  Hint Resolve legacy_conditions_unordered : unord.
  Lemma chx_fa_unordered : unordered (de_chx_fa r). Proof. record. Qed.
  Hint Resolve chx_fa_unordered : unord.
  Lemma chx_fc_unordered : unordered (de_chx_fc r). Proof. record. Qed.
  Hint Resolve chx_fc_unordered : unord.
  Lemma regen_fa_unordered : unordered (de_regen_fa r). Proof. record. Qed.
  Hint Resolve regen_fa_unordered : unord.
  Lemma regen_fc_unordered : unordered (de_regen_fc r). Proof. record. Qed.
  Hint Resolve regen_fc_unordered : unord.
  Lemma hhx_fa_unordered : unordered (de_hhx_fa r). Proof. record. Qed.
  Hint Resolve hhx_fa_unordered : unord.
  Lemma hhx_fc_unordered : unordered (de_hhx_fc r). Proof. record. Qed.
  Hint Resolve hhx_fc_unordered : unord.
  Lemma chx_gpu3_unordered : unordered (de_chx_gpu3 r). Proof. record. Qed.
  Hint Resolve chx_gpu3_unordered : unord.
  Lemma chx_mod2_unordered : unordered (de_chx_mod2 r). Proof. record. Qed.
  Hint Resolve chx_mod2_unordered : unord.
  Lemma regen_gpu3_unordered : unordered (de_regen_gpu3 r). Proof. record. Qed.
  Hint Resolve regen_gpu3_unordered : unord.
  Lemma regen_mod2_unordered : unordered (de_regen_mod2 r). Proof. record. Qed.
  Hint Resolve regen_mod2_unordered : unord.
  Lemma hhx_gpu3_unordered : unordered (de_hhx_gpu3 r). Proof. record. Qed.
  Hint Resolve hhx_gpu3_unordered : unord.
  Lemma hhx_mod2_unordered : unordered (de_hhx_mod2 r). Proof. record. Qed.
  Hint Resolve hhx_mod2_unordered : unord.
  Lemma hhx_ni_unordered : unordered (de_hhx_ni r). Proof. record. Qed.
  Hint Resolve hhx_ni_unordered : unord.
  Lemma sinusoidal_unordered : unordered (de_sinusoidal r). Proof. record. Qed.
  Hint Resolve sinusoidal_unordered : unord.
  Lemma rhombic_unordered : unordered (de_rhombic r). Proof. record. Qed.
  Hint Resolve rhombic_unordered : unord.
  Lemma ws_gpu3_unordered : unordered (de_ws_gpu3 r). Proof. record. Qed.
  Hint Resolve ws_gpu3_unordered : unord.
  Lemma ws_mod2_unordered : unordered (de_ws_mod2 r). Proof. record. Qed.
  Hint Resolve ws_mod2_unordered : unord.
  Ltac enum :=
    apply external_unordered; intros n f I; simpl in I;
    repeat (destruct I as [I | I]; [injection I as <- <-; apply variant_unordered; auto with unord |]); contradiction.
  Lemma fluid_model_unordered : unordered (de_fluid_model r).
  Proof. intros d d' R. apply bind_ext; [apply field_unordered; [auto with unord | exact R] | reflexivity]. Qed.
  Hint Resolve fluid_model_unordered : unord.
  Lemma fluid_unordered : unordered (de_fluid r). Proof. enum. Qed.
  Lemma chx_unordered : unordered (de_chx r). Proof. enum. Qed.
  Lemma regen_unordered : unordered (de_regen r). Proof. enum. Qed.
  Lemma hhx_unordered : unordered (de_hhx r). Proof. enum. Qed.
  Lemma ws_unordered : unordered (de_ws r). Proof. enum. Qed.
  Hint Resolve fluid_unordered chx_unordered regen_unordered hhx_unordered ws_unordered : unord.
  Lemma components_unordered : unordered (de_components r). Proof. record. Qed.
  Hint Resolve components_unordered : unord.
  Lemma engine_unordered : unordered (de_engine r). Proof. record. Qed.
  Hint Resolve engine_unordered : unord.
  Theorem config_unordered d d' : reordered d d' -> de_config r d = de_config r d'.
  Proof. revert d d'. change (unordered (de_config r)). record. Qed.

  (** with one way to read scalars, legacy documents have no order either *)
  Lemma keep_field_reordered k (d d' : D) :
    reordered d d' ->
    match field k keep d, field k keep d' with Some a, Some b => reordered a b | None, None => True | _, _ => False end.
  Proof.
    intros R. rewrite !field_child. pose proof (child_reordered d d' k R) as C.
    destruct (child d k), (child d' k); exact C.
  Qed.
  Lemma absent_reordered k l l' l'' :
    Forall2 same_entry l l' -> Permutation l' l'' -> absent k l = absent k l''.
  Proof.
    intros H P. assert (E : map fst l = map fst l').
    { clear P. induction H as [| a b l l' [E _] H IH]; simpl; [reflexivity | rewrite E, IH; reflexivity]. }
    assert (I : In k (map fst l) <-> In k (map fst l'')).
    { rewrite E. split; apply Permutation_in; [| apply Permutation_sym]; apply Permutation_map; exact P. }
    pose proof (absent_iff k l) as A. pose proof (absent_iff k l'') as B.
    destruct (absent k l), (absent k l''); try reflexivity; intuition discriminate.
  Qed.
  Lemma adjacent_unordered {A} (cases : list (string * ((Reader V F -> D -> option A) + A))) :
    (forall n f, In (n, inl f) cases -> unordered (f r)) -> unordered (de_adjacent r r "model" "params" cases).
  Proof.
    intros H d d' R. pose proof R as R'. destruct R' as [v | l l' l'' S P]; [reflexivity |].
    unfold de_adjacent. rewrite (field_unordered "model" _ str_unordered _ _ R).
    destruct (field "model" (de_str r) (Table l'')) as [s |]; [| reflexivity]. cbn [bind].
    destruct (pick (fun s => s) cases s) as [[read | a] |] eqn:Q; cbn [bind]; [| | reflexivity].
    - destruct (pick_sound _ _ _ _ Q) as (n & I & _).
      pose proof (keep_field_reordered "params" _ _ R) as K.
      destruct (field "params" keep (Table l)) as [c |], (field "params" keep (Table l'')) as [c' |];
        try contradiction; [| reflexivity].
      cbn [bind]. destruct (first_of _ _ l), (first_of _ _ l''); exact (H n read I c c' K).
    - rewrite (absent_reordered "params" _ _ _ S P). destruct (absent "params" l''); [reflexivity |].
      replace (if first_of "model" "params" l then r else r) with r by (destruct (first_of "model" "params" l); reflexivity).
      replace (if first_of "model" "params" l'' then r else r) with r by (destruct (first_of "model" "params" l''); reflexivity).
      rewrite (field_unordered "params" _ (leaf_unordered _) _ _ R). reflexivity.
  Qed.
  Lemma held_unordered {A B} (read : Reader V F -> D -> option A) (con : A -> B) (n : string) f (m : string) :
    unordered (read r) -> (m, holds read con) = (n, inl f) -> unordered (f r).
  Proof. intros H E. injection E as _ <-. intros d d' R. apply bind_ext; [exact (H d d' R) | reflexivity]. Qed.
  Ltac legacy_enum :=
    apply adjacent_unordered; intros n f I; simpl in I;
    repeat (destruct I as [I | I]; [first [discriminate I | refine (held_unordered _ _ _ _ _ _ I); auto with unord] |]);
    contradiction.
  Lemma legacy_gas_unordered : unordered (de_legacy_gas r).
  Proof. apply field_unordered. apply unit_enum_unordered. Qed.
  Hint Resolve legacy_gas_unordered : unord.
  Lemma legacy_fluid_unordered : unordered (de_legacy_fluid r r). Proof. legacy_enum. Qed.
  Lemma legacy_chx_unordered : unordered (de_legacy_chx r r). Proof. legacy_enum. Qed.
  Lemma legacy_regen_unordered : unordered (de_legacy_regen r r). Proof. legacy_enum. Qed.
  Lemma legacy_hhx_unordered : unordered (de_legacy_hhx r r). Proof. legacy_enum. Qed.
  Lemma legacy_ws_unordered : unordered (de_legacy_ws r r). Proof. legacy_enum. Qed.
  Hint Resolve legacy_fluid_unordered legacy_chx_unordered legacy_regen_unordered legacy_hhx_unordered
    legacy_ws_unordered : unord.
  Theorem legacy_unordered d d' : reordered d d' -> de_legacy r r d = de_legacy r r d'.
  Proof. revert d d'. change (unordered (de_legacy r r)). record. Qed.
  End Reading.
End Order.
