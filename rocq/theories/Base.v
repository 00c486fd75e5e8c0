(** * Base: errors, the error monad, Python sequences and strings.

    Shared vocabulary of the model of /repo (energy-py-linear).  Python
    exceptions are values of [pyerr]; a Python call that may raise returns
    [res A].  Numbers are exact rationals [Q] (floating point rounding is not
    modelled: see DESIGN.md, trusted base). *)
From Coq Require Export List String Ascii ZArith QArith Qminmax Qabs Bool Arith Lia Lqa.
From Coq Require Import DecimalString DecimalNat.
Export ListNotations.
Open Scope string_scope.
Open Scope list_scope.
Open Scope nat_scope.

(** Python exceptions that the modelled code can raise. [Unmodelled] marks
    inputs that are outside of the model (never a silent success). *)
Inductive pyerr : Type :=
| AssertionErr      (* assert ... *)
| ValueErr          (* raise ValueError, also pydantic ValidationError raised by a ValueError *)
| ValidationErr     (* pydantic field constraint (gt / ge / le / Literal) *)
| KeyErr            (* dict or DataFrame lookup *)
| IndexErr          (* list / ndarray index out of range *)
| AttributeErr      (* getattr on a missing attribute *)
| TypeErr
| ZeroDivErr
| PulpErr           (* pulp.PulpError *)
| SchemaErr         (* pandera SchemaError *)
| Unmodelled.

Inductive res (A : Type) : Type :=
| Ok (a : A)
| Err (e : pyerr).
Arguments Ok {A} a.
Arguments Err {A} e.

Definition rbind {A B} (m : res A) (f : A -> res B) : res B :=
  match m with Ok a => f a | Err e => Err e end.
Definition rassert (b : bool) : res unit := if b then Ok tt else Err AssertionErr.

Declare Scope res_scope.
Delimit Scope res_scope with res.
Notation "'let!' x := m 'in' f" := (rbind m (fun x => f))
  (at level 200, x name, m at level 100, f at level 200, right associativity).
Notation "'check' b ';;' f" := (rbind (rassert b) (fun _ => f))
  (at level 200, b at level 100, f at level 200, right associativity).

(** A [for] loop collecting results; stops at the first exception. *)
Fixpoint rmap {A B} (f : A -> res B) (l : list A) : res (list B) :=
  match l with
  | [] => Ok []
  | x :: xs => let! y := f x in let! ys := rmap f xs in Ok (y :: ys)
  end.

Definition of_option {A} (e : pyerr) (o : option A) : res A :=
  match o with Some a => Ok a | None => Err e end.

(** Python [l[i]] for any integer [i] (negative indices count from the end). *)
Definition py_index {A} (l : list A) (i : Z) : res A :=
  let n := Z.of_nat (List.length l) in
  if (0 <=? i)%Z && (i <? n)%Z then of_option IndexErr (nth_error l (Z.to_nat i))
  else if (i <? 0)%Z && (- n <=? i)%Z then of_option IndexErr (nth_error l (Z.to_nat (n + i)))
  else Err IndexErr.

Definition hd_res {A} (l : list A) : res A := py_index l 0%Z.

(** [enumerate(l)] *)
Fixpoint enum_from {A} (n : nat) (l : list A) : list (nat * A) :=
  match l with [] => [] | x :: xs => (n, x) :: enum_from (S n) xs end.
Definition enumerate {A} (l : list A) := enum_from 0 l.

(** ** Strings *)

(** Python [str(n)] for a natural number. *)
Definition show (n : nat) : string := NilZero.string_of_uint (Nat.to_uint n).

(** Python [p in s]. *)
Fixpoint contains (p s : string) : bool :=
  String.prefix p s || match s with EmptyString => false | String _ s' => contains p s' end.

(** Python [s.endswith(p)]. *)
Fixpoint ends_with (p s : string) : bool :=
  String.eqb p s || match s with EmptyString => false | String _ s' => ends_with p s' end.

(** Python [s.startswith(p)]. *)
Definition starts_with (p s : string) : bool := String.prefix p s.

Fixpoint nodup_str (l : list string) : bool :=
  match l with
  | [] => true
  | x :: xs => negb (existsb (String.eqb x) xs) && nodup_str xs
  end.

(** ** Rationals *)
Definition Qsum (l : list Q) : Q := fold_right Qplus 0%Q l.
Definition Qltb (a b : Q) : bool := negb (Qle_bool b a).
Definition Qgtb (a b : Q) : bool := Qltb b a.

(** ** Association lists with string keys *)
Fixpoint assoc {A} (k : string) (l : list (string * A)) : option A :=
  match l with
  | [] => None
  | (k', a) :: r => if String.eqb k k' then Some a else assoc k r
  end.
