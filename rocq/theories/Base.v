(** * Base: outcomes, bytes, byte strings, maps, sorting.

    Shared vocabulary of the model.  Nothing here models a particular function
    of the repository; the Rust standard-library behaviour each definition
    stands for is named in its comment. *)
From Coq Require Export List Arith Lia Bool NArith Permutation Sorted.
From Coq Require Export Strings.Byte.
Export ListNotations.

(** ** Outcomes
    [Ret a]: normal return.  [Panic]: a Rust panic ([assert!], [unwrap] on
    [None], index out of range, [unreachable!], checked subtraction).
    [OutOfFuel]: the model's own fuel ran out; no theorem accepts it. *)
Inductive outcome (A : Type) : Type :=
| Ret (a : A)
| Panic
| OutOfFuel.
Arguments Ret {A} a.
Arguments Panic {A}.
Arguments OutOfFuel {A}.

Definition bind {A B} (m : outcome A) (f : A -> outcome B) : outcome B :=
  match m with
  | Ret a => f a
  | Panic => Panic
  | OutOfFuel => OutOfFuel
  end.

Notation "x <- m ;; k" := (bind m (fun x => k))
  (at level 61, m at next level, right associativity).
Notation "' p <- m ;; k" := (bind m (fun x => let p := x in k))
  (at level 61, p pattern, m at next level, right associativity).

(** [assert!(b)] *)
Definition assert_that (b : bool) : outcome unit := if b then Ret tt else Panic.

(** [opt.unwrap()] *)
Definition unwrap {A} (o : option A) : outcome A :=
  match o with Some a => Ret a | None => Panic end.

(** [a - b] on usize, debug semantics (panics on underflow). *)
Definition checked_sub (a b : nat) : outcome nat :=
  if b <=? a then Ret (a - b) else Panic.

(** A [for] loop over a list with a mutable state. *)
Fixpoint mfold {S A} (f : S -> A -> outcome S) (l : list A) (s : S) : outcome S :=
  match l with
  | [] => Ret s
  | x :: r => s' <- f s x ;; mfold f r s'
  end.

Fixpoint mmap {A B} (f : A -> outcome B) (l : list A) : outcome (list B) :=
  match l with
  | [] => Ret []
  | x :: r => y <- f x ;; ys <- mmap f r ;; Ret (y :: ys)
  end.

(** ** Vectors *)
(** [v[i]] *)
Definition idx {A} (v : list A) (i : nat) : outcome A := unwrap (nth_error v i).

Fixpoint upd {A} (i : nat) (f : A -> A) (l : list A) : list A :=
  match l, i with
  | [], _ => []
  | x :: r, O => f x :: r
  | x :: r, S i' => x :: upd i' f r
  end.

(** [v[i] = f(v[i])] *)
Definition idx_upd {A} (v : list A) (i : nat) (f : A -> A) : outcome (list A) :=
  if i <? length v then Ret (upd i f v) else Panic.

(** [iter().enumerate()] *)
Fixpoint enum_from {A} (n : nat) (l : list A) : list (nat * A) :=
  match l with
  | [] => []
  | x :: r => (n, x) :: enum_from (S n) r
  end.
Definition enum {A} (l : list A) : list (nat * A) := enum_from 0 l.

(** First [Some] of [f] along a list: a [for] loop with [break]. *)
Fixpoint find_map {A B} (f : A -> option B) (l : list A) : option B :=
  match l with
  | [] => None
  | x :: r => match f x with Some b => Some b | None => find_map f r end
  end.

(** [iter().position(p)] *)
Fixpoint position {A} (p : A -> bool) (l : list A) : option nat :=
  match l with
  | [] => None
  | x :: r => if p x then Some 0 else option_map S (position p r)
  end.

Definition sum (l : list nat) : nat := fold_right Nat.add 0 l.

(** ** Bytes *)
Definition b2n (b : byte) : nat := Byte.to_nat b.
(** [n as u8] *)
Definition n2b (n : nat) : byte :=
  match Byte.of_nat (n mod 256) with Some b => b | None => x00 end.
(** [0..=255] as bytes, in order *)
Definition all_bytes : list byte := map n2b (seq 0 256).

Definition bstr := list byte.

Fixpoint bstr_eqb (x y : bstr) : bool :=
  match x, y with
  | [], [] => true
  | a :: x', b :: y' => Byte.eqb a b && bstr_eqb x' y'
  | _, _ => false
  end.

(** Lexicographic [Ord] of [Vec<u8>]. *)
Fixpoint bstr_cmp (x y : bstr) : comparison :=
  match x, y with
  | [], [] => Eq
  | [], _ :: _ => Lt
  | _ :: _, [] => Gt
  | a :: x', b :: y' =>
      match Nat.compare (b2n a) (b2n b) with
      | Eq => bstr_cmp x' y'
      | c => c
      end
  end.

(** ** [HashMap<Vec<u8>, V>]: newest binding first. *)
Definition smap (V : Type) := list (bstr * V).
Fixpoint sget {V} (m : smap V) (k : bstr) : option V :=
  match m with
  | [] => None
  | (k', v) :: r => if bstr_eqb k k' then Some v else sget r k
  end.
Definition sinsert {V} (m : smap V) (k : bstr) (v : V) : smap V := (k, v) :: m.
Definition smem {V} (m : smap V) (k : bstr) : bool :=
  match sget m k with Some _ => true | None => false end.

(** ** Stable sort ([slice::sort], [sort_by_key])
    Insertion sort; [leb x y] is "x may stay in front of y".  Any stable sort
    by a total preorder returns the same list. *)
Fixpoint insert_stable {A} (leb : A -> A -> bool) (x : A) (l : list A) : list A :=
  match l with
  | [] => [x]
  | y :: r => if leb x y then x :: y :: r else y :: insert_stable leb x r
  end.
Definition stable_sort {A} (leb : A -> A -> bool) (l : list A) : list A :=
  fold_right (insert_stable leb) [] l.

Definition cmp_leb (c : comparison) : bool :=
  match c with Gt => false | _ => true end.
