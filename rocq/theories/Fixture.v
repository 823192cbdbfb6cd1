(** * Fixtures: concrete oracles for examples and replayed tests

    Nothing here models code of the repository.  These are simple stand-ins for
    the external parts (linear solver, integrator, mathematical library), used
    to show that the hypotheses of theorems are met by concrete runs. *)
From Coq Require Import ZArith NArith List Reals.
From Flocq Require Import Core BinarySingleNaN.
From Verif Require Import Num ModelTypes ModelWs ModelHx ModelStateEq ModelEngine ModelApi B64.
Import ListNotations.

(** ** Gaussian elimination with partial pivoting, any number type *)
Section Gauss.
  Context {F : Type} {ops : NumOps F}.
  Local Open Scope num_scope.
  Definition head0 (r : list F) : F := match r with [] => n0 | x :: _ => x end.
  (** the row with the largest leading entry, and the others *)
  Fixpoint pick (best : list F) (rows : list (list F)) : list F * list (list F) :=
    match rows with
    | [] => (best, [])
    | r :: rows' =>
        if n_lt (n_abs (head0 best)) (n_abs (head0 r))
        then let (b, rest) := pick r rows' in (b, best :: rest)
        else let (b, rest) := pick best rows' in (b, r :: rest)
    end.
  Fixpoint sub_scaled (f : F) (r p : list F) : list F :=
    match r, p with
    | x :: r', y :: p' => (x - f * y) :: sub_scaled f r' p'
    | _, _ => []
    end.
  (** right-hand side minus the product with the unknowns already found *)
  Fixpoint back (row xs : list F) : F :=
    match row, xs with
    | [b], [] => b
    | a :: row', x :: xs' => if n_lt n0 (n_abs a) then back row' xs' - a * x else back row' xs'
    | _, _ => n0
    end.
  Fixpoint eliminate (n : nat) (rows : list (list F)) : option (list F) :=
    match n, rows with
    | O, _ => Some []
    | S n', [] => None
    | S n', r :: rows' =>
        let (p, rest) := pick r rows' in
        match p with
        | [] => None
        | a :: p' =>
            if n_lt n0 (n_abs a) then
              let rest' := map (fun r => match r with
                                         | [] => []
                                         | b :: r' => if n_lt n0 (n_abs b) then sub_scaled (b / a) r' p' else r'
                                         end) rest in
              match eliminate n' rest' with
              | None => None
              | Some xs => Some (back p' xs / a :: xs)
              end
            else None
        end
    end.
  Definition row_of {A} (v : vec10 A) : list A :=
    [v0 v; v1 v; v2 v; v3 v; v4 v; v5 v; v6 v; v7 v; v8 v; v9 v].
  Fixpoint augment (a : list (list F)) (b : list F) : list (list F) :=
    match a, b with
    | r :: a', x :: b' => (r ++ [x]) :: augment a' b'
    | _, _ => []
    end.
  Definition gauss : Decomp F := fun a b =>
    match eliminate 10 (augment (map row_of (row_of a)) (row_of b)) with
    | Some [x0; x1; x2; x3; x4; x5; x6; x7; x8; x9] => Some (V10 x0 x1 x2 x3 x4 x5 x6 x7 x8 x9)
    | _ => None
    end.

  (** ** A fixed-step fourth order Runge-Kutta integrator *)
  Definition v3_add (a b : vec3 F) : vec3 F :=
    (fst (fst a) + fst (fst b), snd (fst a) + snd (fst b), snd a + snd b).
  Definition v3_scale (k : F) (a : vec3 F) : vec3 F :=
    (k * fst (fst a), k * snd (fst a), k * snd a).
  Definition rk4 (t h : F) (y : vec3 F) (k : vec3 F -> ode_prog F) : ode_prog F :=
    OAsk t y (fun k1 =>
    OAsk (t + nhalf * h) (v3_add y (v3_scale (nhalf * h) k1)) (fun k2 =>
    OAsk (t + nhalf * h) (v3_add y (v3_scale (nhalf * h) k2)) (fun k3 =>
    OAsk (t + h) (v3_add y (v3_scale h k3)) (fun k4 =>
    k (v3_add y (v3_scale (h / n_lit 6 0)
         (v3_add (v3_add k1 (v3_scale n2 k2)) (v3_add (v3_scale n2 k3) k4)))))))).
  (** [m] substeps of size [h] from [t] *)
  Fixpoint substeps (m : nat) (t h : F) (y : vec3 F) (k : F -> vec3 F -> ode_prog F) : ode_prog F :=
    match m with
    | O => k t y
    | S m' => rk4 t h y (fun y' => substeps m' (t + h) h y' k)
    end.
  (** output at [x], [x + dx], ... not beyond [x_end]; at most [n] outputs after
      the first *)
  Fixpoint outputs (sub n : nat) (x dx x_end : F) (y : vec3 F) (xs : list F) (ys : list (vec3 F))
    : ode_prog F :=
    match n with
    | O => ODone (rev (x :: xs)) (rev (y :: ys))
    | S n' =>
        if n_le (x + dx) x_end then
          substeps sub x (dx / n_of_u32 (N.of_nat sub)) y
            (fun _ y' => outputs sub n' (x + dx) dx x_end y' (x :: xs) (y :: ys))
        else ODone (rev (x :: xs)) (rev (y :: ys))
    end.
  (** [total] substeps per period, at most [n] output intervals *)
  Definition rk4_env (sub : OdeArgs F -> nat) (n : nat) (checks : bool) : Env F :=
    mkEnv (fun a => outputs (sub a) n (oa_x a) (oa_dx a) (oa_x_end a) (oa_y a) [] []) checks.
End Gauss.

(** ** A rough mathematical library for f64 *)
Section Series.
  Let add := Bplus mode_NE (prec := 53) (emax := 1024).
  Let mul := Bmult mode_NE (prec := 53) (emax := 1024).
  Let div := Bdiv mode_NE (prec := 53) (emax := 1024).
  Let one : b64 := b64_lit 1 0.
  Let int (n : Z) : b64 := b64_lit n 0.
  (** [sum_i (-1)^i x^(2i)/(2i)!] and the like by Horner *)
  Fixpoint cos_from (n : nat) (k : Z) (x2 : b64) : b64 :=
    match n with
    | O => one
    | S n' => Bminus mode_NE one (mul (div x2 (int (k * (k + 1)))) (cos_from n' (k + 2) x2))
    end.
  Definition series_cos (x : b64) : b64 := cos_from 20 1 (mul x x).
  Definition series_sin (x : b64) : b64 := mul x (cos_from 20 2 (mul x x)).
  Fixpoint exp_from (n : nat) (k : Z) (x : b64) : b64 :=
    match n with
    | O => one
    | S n' => add one (mul (div x (int k)) (exp_from n' (k + 1) x))
    end.
  (** exp x = (exp (x / 64))^64 *)
  Definition series_exp (x : b64) : b64 :=
    let y := exp_from 12 1 (div x (int 64)) in
    let sq z := mul z z in
    sq (sq (sq (sq (sq (sq y))))).
  (** ln x = 2 artanh ((x-1)/(x+1)) *)
  Fixpoint artanh_from (n : nat) (k : Z) (z2 : b64) : b64 :=
    match n with
    | O => div one (int k)
    | S n' => add (div one (int k)) (mul z2 (artanh_from n' (k + 2) z2))
    end.
  Definition series_ln (x : b64) : b64 :=
    let z := div (Bminus mode_NE x one) (add x one) in
    mul (int 2) (mul z (artanh_from 30 1 (mul z z))).
End Series.
Definition demo_libm : Libm := mkLibm series_exp series_ln series_cos series_sin.
#[global] Instance demo_ops : NumOps b64 := b64_ops demo_libm true.

(** [x] and [y] agree to the relative accuracy [10^-d] *)
Definition rel_close (d : Z) (x y : b64) : bool :=
  Bleb (Babs (Bminus mode_NE x y)) (Bmult mode_NE (b64_lit 1 (- d)) (Babs y)).
