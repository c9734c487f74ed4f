(** * Base: outcomes, demonic choice, checked arrays, loops.

    This file models no particular source file of /repo; it fixes how the C++
    abstract machine is rendered in every Model*.v file.

    - Undefined behaviour, C++ exceptions and (model-only) fuel exhaustion are
      distinct failure outcomes ([failure]); nothing is totalised away.
    - Every random draw (src/util/RandomEngine.hpp) and every choice the library
      containers leave unspecified (tie-break of sl::FixedPriorityQueue, iteration
      order of sl::FixedSet) is taken from an explicit stream of naturals.
      Theorems quantify over all streams. *)
From stdpp Require Export prelude list.
From Coq Require Export ZArith.
From Verif Require Export ZifyAll.

Inductive ub_reason :=
  | OutOfBounds          (* array/vector index outside its size *)
  | Uninit               (* read of a never written cell of sl::Array(n) / new T[n] *)
  | NoWeights            (* weightOf<true> on a graph that stores no weight array (null pointer) *)
  | ContainerContract    (* misuse of an sl:: container: add present / remove absent key *)
  | SignedOverflow       (* int32_t subtraction/addition leaves the range *)
  | FloatCast            (* double -> uint32_t conversion out of range *)
  | BadRange             (* iterator range with end before begin *)
  | EmptyRange.          (* random choice from an empty range *)

Inductive exn :=
  | InvalidPartitionFractions   (* TargetPartitioning.hpp: exception class *)
  | RuntimeError                (* std::runtime_error *)
  | OutOfRangeError.            (* std::out_of_range *)

Inductive failure :=
  | UB (r : ub_reason)
  | Throw (e : exn)
  | OutOfFuel.                  (* model only; excluded by theorem C09 *)

Inductive outcome (A : Type) :=
  | Ok (a : A)
  | Fail (f : failure).
Arguments Ok {A} a.
Arguments Fail {A} f.

Definition obind {A B} (m : outcome A) (k : A -> outcome B) : outcome B :=
  match m with Ok a => k a | Fail f => Fail f end.

Declare Scope out_scope.
Delimit Scope out_scope with out.
Notation "'let!' x ':=' m 'in' k" := (obind m (fun x => k))
  (at level 200, x pattern, m at level 100, k at level 200,
   format "'[v' 'let!'  x  ':='  m  'in' '/' k ']'") : out_scope.
Open Scope out_scope.

(** Computations with choices: the stream is consumed from the left; an exhausted
    stream yields 0 for ever. *)
Definition M (A : Type) := list nat -> outcome (A * list nat).
Definition ret {A} (a : A) : M A := fun cs => Ok (a, cs).
Definition lift {A} (m : outcome A) : M A := fun cs => obind m (fun a => Ok (a, cs)).
Definition mfail {A} (f : failure) : M A := fun _ => Fail f.
Definition mbindM {A B} (m : M A) (k : A -> M B) : M B :=
  fun cs => obind (m cs) (fun p => k (fst p) (snd p)).
Notation "'do!' x ':=' m 'in' k" := (mbindM m (fun x => k))
  (at level 200, x pattern, m at level 100, k at level 200,
   format "'[v' 'do!'  x  ':='  m  'in' '/' k ']'") : out_scope.

Definition next_choice : M nat := fun cs =>
  match cs with [] => Ok (0, []) | c :: cs' => Ok (c, cs') end.

(** A number in [0, n); n = 0 is an empty range. *)
Definition choose_below (n : nat) : M nat :=
  do! c := next_choice in
  if Nat.eqb n 0 then mfail (UB EmptyRange) else ret (c mod n).

(** An element of a list, chosen by the stream. *)
Definition choose_from {A} (l : list A) : M A :=
  do! i := choose_below (length l) in
  match l !! i with Some a => ret a | None => mfail (UB EmptyRange) end.

(** Remove the element at position i. *)
Fixpoint remove_nth {A} (i : nat) (l : list A) : list A :=
  match l, i with
  | [], _ => []
  | _ :: l', 0 => l'
  | x :: l', S i' => x :: remove_nth i' l'
  end.

(** An arbitrary ordering of a list: repeatedly take a chosen element out. *)
Fixpoint choose_perm_aux {A} (fuel : nat) (l : list A) : M (list A) :=
  match fuel with
  | 0 => ret []
  | S fuel' =>
    do! i := choose_below (length l) in
    match l !! i with
    | None => mfail (UB EmptyRange)
    | Some x =>
      do! r := choose_perm_aux fuel' (remove_nth i l) in
      ret (x :: r)
    end
  end.
Definition choose_perm {A} (l : list A) : M (list A) := choose_perm_aux (length l) l.

(** Checked arrays. *)
Definition rd {A} (l : list A) (i : nat) : outcome A :=
  match l !! i with Some a => Ok a | None => Fail (UB OutOfBounds) end.
Definition wr {A} (l : list A) (i : nat) (a : A) : outcome (list A) :=
  if decide (i < length l) then Ok (<[i := a]> l) else Fail (UB OutOfBounds).

(** Arrays whose cells may be uninitialised (sl::Array<T>(n), new T[n]). *)
Definition alloc {A} (n : nat) : list (option A) := replicate n None.
Definition rdi {A} (l : list (option A)) (i : nat) : outcome A :=
  match l !! i with
  | Some (Some a) => Ok a
  | Some None => Fail (UB Uninit)
  | None => Fail (UB OutOfBounds)
  end.
Definition wri {A} (l : list (option A)) (i : nat) (a : A) : outcome (list (option A)) :=
  wr l i (Some a).
(** All cells must have been written; the array is from here on read as a plain one. *)
Fixpoint frozen {A} (l : list (option A)) : outcome (list A) :=
  match l with
  | [] => Ok []
  | None :: _ => Fail (UB Uninit)
  | Some a :: l' => let! r := frozen l' in Ok (a :: r)
  end.

(** Loops: left folds with early failure. *)
Fixpoint ofold {A S} (f : S -> A -> outcome S) (s : S) (l : list A) : outcome S :=
  match l with
  | [] => Ok s
  | a :: l' => let! s' := f s a in ofold f s' l'
  end.
Fixpoint mfold {A S} (f : S -> A -> M S) (s : S) (l : list A) : M S :=
  match l with
  | [] => ret s
  | a :: l' => do! s' := f s a in mfold f s' l'
  end.

(** for (i = a; i < b; ++i): indices visited *)
Definition range (a b : nat) : list nat := seq a (b - a).

(** Fixed-width arithmetic. [wgt_type] is uint32_t (poros.h:47), [wgt_diff_type] is
    int32_t (Base.hpp:46). *)
Definition W32 : Z := 4294967296%Z.
Definition H32 : Z := 2147483648%Z.
Definition u32 (z : Z) : Z := (z mod W32)%Z.
(** static_cast<int32_t>(uint32_t): implementation-defined before C++20, two's
    complement on every supported compiler. *)
Definition i32_of_u32 (z : Z) : Z := (if z <? H32 then z else z - W32)%Z.
Definition i32 (z : Z) : outcome Z :=
  if decide (-H32 <= z < H32)%Z then Ok z else Fail (UB SignedOverflow).
Definition NULL_WGT : Z := 4294967295%Z.
