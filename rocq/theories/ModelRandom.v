(** * ModelRandom: util/SimpleRandomEngine.hpp/.cpp, util/RandomEngine.hpp, util/RandomEngineHandle.hpp,
    util/RandomEngineFactory.cpp; and partition/MultilevelPartitioner.cpp. *)
From Verif Require Import Base F64 ModelGraph ModelPartition.
From Coq Require Import NArith.

(** std::mt19937 (SimpleRandomEngine.hpp:49: RandomGenerator), as the C++ standard defines it
    (rand.eng.mers): the state is the last 624 words, oldest first. *)
Definition mt_n := 624.
Definition mt_m := 397.
Definition w32 (x : N) : N := N.land x 0xFFFFFFFF.
Fixpoint mt_init (fuel : nat) (i : N) (x : N) : list N :=
  match fuel with
  | 0 => []
  | S fuel' => x :: mt_init fuel' (i + 1) (w32 (1812433253 * N.lxor x (N.shiftr x 30) + (i + 1)))
  end.
Definition mt_seed (seed : N) : list N := mt_init mt_n 0 (w32 seed).
Definition mt_twist (st : list N) : N :=
  let y := N.lor (N.land (nth 0 st 0%N) 0x80000000) (N.land (nth 1 st 0%N) 0x7FFFFFFF) in
  N.lxor (N.lxor (nth mt_m st 0%N) (N.shiftr y 1)) (if N.testbit y 0 then 0x9908B0DF else 0%N).
Definition mt_temper (x : N) : N :=
  let y := N.lxor x (N.shiftr x 11) in
  let y := N.lxor y (N.land (w32 (N.shiftl y 7)) 0x9D2C5680) in
  let y := N.lxor y (N.land (w32 (N.shiftl y 15)) 0xEFC60000) in
  N.lxor y (N.shiftr y 18).
Definition mt_next (st : list N) : N * list N :=
  let x := mt_twist st in (mt_temper x, tl st ++ [x]).

(** The engines that live (std::make_shared); a handle is a shared pointer, so a position. *)
Notation engines := (list (list N)).
Notation handle := nat.
(** RandomEngineFactory.cpp:41-45, SimpleRandomEngine.cpp:41-45 *)
Definition engine_make (seed : N) (es : engines) : handle * engines := (length es, es ++ [mt_seed seed]).
(** RandomEngineHandle.hpp:48-53: a copy of a handle shares its engine *)
Definition handle_copy (h : handle) : handle := h.
(** A request that draws from the engine: SimpleRandomEngine.hpp:86-103 operator()(), randInRange;
    SimpleRandomEngine.cpp:52-58 fillWithPerm.  What solidutils makes of the numbers is left open:
    a request is any function of the state of the engine. *)
Definition request (A : Type) := list N -> A * list N.
Definition engine_call {A} (h : handle) (f : request A) (es : engines) : outcome (A * engines) :=
  let! st := rd es h in
  let r := f st in
  let! es' := wr es h (snd r) in
  Ok (fst r, es').
(** RandomEngineHandle.hpp:90-94, SimpleRandomEngine.cpp:61-66 *)
Definition engine_set_seed (h : handle) (seed : N) (es : engines) : outcome engines :=
  wr es h (mt_seed seed).
(** SimpleRandomEngine.hpp:57-72 *)
Definition engine_min : N := 0%N.
Definition engine_max : N := 4294967295%N.

(** MultilevelPartitioner.cpp:59-76: whatever the components, the steps are not there *)
Definition mlp_execute (t : target) (g : graph) : outcome part := Ok (part_new (t_np t) g).
