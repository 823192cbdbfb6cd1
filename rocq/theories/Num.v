(** * Numbers, panics and results

    The Rust code computes with [f64].  The model is polymorphic in the number
    type [F]: every floating point operation the code uses is a field of
    [NumOps F].  [RNum.v] instantiates it with the real numbers, [B64.v] with
    IEEE-754 double precision. *)
From Coq Require Import ZArith NArith List.
Import ListNotations.

Class NumOps (F : Type) := {
  (** decimal literal [m * 10^e] of the source text *)
  n_lit : Z -> Z -> F;
  (** [f64::from(u32)] *)
  n_of_u32 : N -> F;
  n_add : F -> F -> F;
  n_sub : F -> F -> F;
  n_mul : F -> F -> F;
  n_div : F -> F -> F;
  n_opp : F -> F;
  (** [f64::abs], [f64::sqrt], [f64::exp], [f64::ln], [f64::cos], [f64::sin] *)
  n_abs : F -> F;
  n_sqrt : F -> F;
  n_exp : F -> F;
  n_ln : F -> F;
  n_cos : F -> F;
  n_sin : F -> F;
  (** [std::f64::consts::PI] *)
  n_pi : F;
  (** [f64::INFINITY] and [f64::is_infinite] *)
  n_inf : F;
  n_is_inf : F -> bool;
  (** the IEEE comparison [x < y] (false on NaN) *)
  n_lt : F -> F -> bool;
  (** the IEEE comparison [x <= y] (false on NaN); [x >= y] is [n_le y x] *)
  n_le : F -> F -> bool;
  (** [f64::total_cmp] as "x is not greater than y" *)
  n_total_le : F -> F -> bool
}.

Declare Scope num_scope.
Delimit Scope num_scope with num.
Infix "+" := n_add : num_scope.
Infix "-" := n_sub : num_scope.
Infix "*" := n_mul : num_scope.
Infix "/" := n_div : num_scope.
Notation "- x" := (n_opp x) : num_scope.

Section Literals.
  Context {F : Type} `{NumOps F}.
  Definition n0 : F := n_lit 0 0.          (* 0. *)
  Definition n1 : F := n_lit 1 0.          (* 1. *)
  Definition n2 : F := n_lit 2 0.          (* 2. *)
  Definition nhalf : F := n_lit 5 (-1).    (* 0.5 *)
  (** [x.powi(2)].  The LLVM intrinsic with exponent 2 is one multiplication. *)
  Definition powi2 (x : F) : F := n_mul x x.
  (** [iter.sum::<f64>()]: left fold.  Rust's fold starts from a zero (its sign
      is [-0.0] since Rust 1.83, [0.0] before); modelled with [0.0]. *)
  Definition n_sum (l : list F) : F := fold_left n_add l n0.
End Literals.

(** ** Panics *)

Inductive panic_reason :=
| PTodo            (* todo!() *)
| PSolveFailed     (* .expect("TODO: what ... if this fails?") *)
| PEmpty           (* .unwrap()/.expect()/[0] on an empty vector *)
| POverflow        (* u32 subtraction underflow with overflow checks *)
| PDim             (* nalgebra dimension mismatch *)
| PNotConverged.   (* .expect("engine should converge") *)

Inductive outcome (A : Type) :=
| Ret (a : A)
| Panic (r : panic_reason).
Arguments Ret {A} a.
Arguments Panic {A} r.

Definition obind {A B} (m : outcome A) (k : A -> outcome B) : outcome B :=
  match m with Ret a => k a | Panic r => Panic r end.
Definition omap {A B} (f : A -> B) (m : outcome A) : outcome B :=
  obind m (fun a => Ret (f a)).

Notation "'let!' x ':=' m 'in' k" := (obind m (fun x => k))
  (at level 200, x pattern, m at level 100, k at level 200).

(** [Result<A, E>] *)
Inductive result (A E : Type) :=
| Ok (a : A)
| Err (e : E).
Arguments Ok {A E} a.
Arguments Err {A E} e.

(** Evaluate a panicking function over a list, left to right. *)
Fixpoint omapM {A B} (f : A -> outcome B) (l : list A) : outcome (list B) :=
  match l with
  | [] => Ret []
  | a :: l' => let! b := f a in let! bs := omapM f l' in Ret (b :: bs)
  end.
