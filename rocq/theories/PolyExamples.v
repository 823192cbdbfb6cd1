(** * The sweep prints one line per converged engine *)
From Coq Require Import ZArith NArith List Lia.
From Verif Require Import Num ModelTypes ModelWs ModelHx ModelStateEq ModelEngine ModelApi ModelExamples SpecExamples.
Import ListNotations.

Section Any.
  Context {F : Type} {ops : NumOps F} (E : Env F) (U : Decomp F).
  Lemma step_cases k : match sweep_step E U (N.of_nat k) with
    | Ret line => shows E U k line | Panic p => stops E U k p end.
  Proof.
    unfold sweep_step, shows, stops, step_run.
    destruct (Engine_run E U sweep_components (IdealGas_Fluid IdealGas_hydrogen)
                (sweep_inputs (sweep_temp_source (N.of_nat k))) sweep_settings) as [[e|e]|p]; cbn [obind].
    - exists e. split; [reflexivity|]. repeat split.
    - right. split; [exists e; reflexivity|reflexivity].
    - left. reflexivity.
  Qed.
  Lemma sweep_lines : forall n k, let (lines, p) := sweep_from E U (map N.of_nat (seq k n)) in
    (forall i line, nth_error lines i = Some line -> shows E U (k + i) line) /\
    match p with
    | None => length lines = n
    | Some q => (length lines < n)%nat /\ stops E U (k + length lines) q
    end.
  Proof.
    induction n as [|n IH]; intros k; cbn [seq map sweep_from].
    - split; [intros [|i] line H; discriminate|reflexivity].
    - pose proof (step_cases k) as S. destruct (sweep_step E U (N.of_nat k)) as [line|p].
      + specialize (IH (Datatypes.S k)). destruct (sweep_from E U (map N.of_nat (seq (Datatypes.S k) n))) as [lines p].
        destruct IH as (A & B). split.
        * intros [|i] l H.
          -- injection H as <-. replace (k + 0)%nat with k by lia. exact S.
          -- replace (k + Datatypes.S i)%nat with (Datatypes.S k + i)%nat by lia. exact (A i l H).
        * cbn [length]. destruct p as [q|]; [|congruence].
          replace (k + Datatypes.S (length lines))%nat with (Datatypes.S k + length lines)%nat by lia.
          split; [lia|apply B].
      + split; [intros [|i] l H; discriminate|]. cbn [length]. replace (k + 0)%nat with k by lia. split; [lia|exact S].
  Qed.
  Lemma sweep_output : let (lines, p) := sweep_main E U in
    (forall i line, nth_error lines i = Some line -> shows E U i line) /\
    match p with
    | None => length lines = 101%nat
    | Some q => (length lines < 101)%nat /\ stops E U (length lines) q
    end.
  Proof. exact (sweep_lines 101 0). Qed.
End Any.
