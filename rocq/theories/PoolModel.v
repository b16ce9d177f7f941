(* Model of the memory pool that records what queries reserve (src/memory_pool.rs).
   See PoolSpec.v for what the property means and PoolProps.v for the theorems. *)
From Coq Require Import Ascii String List ZArith Bool.
Import ListNotations.
Open Scope Z_scope.

(* A call of the pool: MemoryPool::grow, try_grow or shrink, on behalf of a consumer *)
Inductive kind := Grow | TryGrow | Shrink.
Record call := { what : kind; consumer : string; size : Z }.

(* The pool inside: GreedyMemoryPool or UnboundedMemoryPool of DataFusion (config/context.rs 137-144). Each operation is one atomic update of the
   number of bytes in use. Simplified: the number is a whole number; Rust keeps it modulo 2^64. *)
Inductive pool := Greedy (limit : Z) | Unbounded.
Definition inner_call (p : pool) (used : Z) (c : call) : Z * bool :=
  match what c with
  | Grow => (used + size c, true)
  | Shrink => (used - size c, true)
  | TryGrow =>
      match p with
      | Greedy limit => if used + size c <=? limit then (used + size c, true) else (used, false)
      | Unbounded => (used + size c, true)
      end
  end.

(* memory_pool.rs 58-60 extract_consumer_name *)
Fixpoint extract_consumer_name (name : string) : string :=
  match name with
  | EmptyString => EmptyString
  | String a r => if Ascii.eqb a "[" then EmptyString else String a (extract_consumer_name r)
  end.

(* memory_pool.rs 90-121: after the call of the inner pool every operation (1) reads the reserved bytes, (2) sets the gauge to this value and
   (3) adds to a counter. Other threads run in between. *)
Inductive stage := ToRead | ToSet (reserved : Z) | ToCount.
Record task := { tcall : call; granted : bool; at_stage : stage }.
(* The gauge, the counter of allocations by consumer and result (true: success), the counter of bytes freed by consumer. Simplified: the gauge and
   the counters are whole numbers. [answers]: what the callers of the inner pool got, in the order of the calls. *)
Record state := { used : Z; gauge : Z; allocated : string -> bool -> Z; freed : string -> Z; tasks : list task; answers : list (call * bool) }.

(* memory_pool.rs 72-78 new *)
Definition init : state := {| used := 0; gauge := 0; allocated := fun _ _ => 0; freed := fun _ => 0; tasks := []; answers := [] |}.

(* memory_pool.rs 35-52 register_allocation, register_deallocation *)
Definition add2 (f : string -> bool -> Z) (n : string) (b : bool) (x : Z) : string -> bool -> Z :=
  fun n' b' => if (String.eqb n n' && Bool.eqb b b')%bool then f n' b' + x else f n' b'.
Definition add1 (f : string -> Z) (n : string) (x : Z) : string -> Z := fun n' => if String.eqb n n' then f n' + x else f n'.
Definition count (t : task) (s : state) (rest : list task) : state :=
  let n := extract_consumer_name (consumer (tcall t)) in
  match what (tcall t) with
  | Shrink => {| used := used s; gauge := gauge s; allocated := allocated s; freed := add1 (freed s) n (size (tcall t)); tasks := rest; answers := answers s |}
  | _ => {| used := used s; gauge := gauge s; allocated := add2 (allocated s) n (granted t) (size (tcall t)); freed := freed s; tasks := rest; answers := answers s |}
  end.

(* One step of some thread: a new call reaches the inner pool, or the i-th unfinished operation goes on *)
Inductive event := Begin (c : call) | Continue (i : nat).
Definition set_task (l : list task) (i : nat) (t : task) : list task := firstn i l ++ t :: skipn (S i) l.
Definition step (p : pool) (s : state) (e : event) : state :=
  match e with
  | Begin c =>
      let '(u, ok) := inner_call p (used s) c in
      {| used := u; gauge := gauge s; allocated := allocated s; freed := freed s;
         tasks := tasks s ++ [{| tcall := c; granted := ok; at_stage := ToRead |}]; answers := answers s ++ [(c, ok)] |}
  | Continue i =>
      match nth_error (tasks s) i with
      | None => s
      | Some t =>
          match at_stage t with
          | ToRead => {| used := used s; gauge := gauge s; allocated := allocated s; freed := freed s;
                         tasks := set_task (tasks s) i {| tcall := tcall t; granted := granted t; at_stage := ToSet (used s) |}; answers := answers s |}
          | ToSet v => {| used := used s; gauge := v; allocated := allocated s; freed := freed s;
                          tasks := set_task (tasks s) i {| tcall := tcall t; granted := granted t; at_stage := ToCount |}; answers := answers s |}
          | ToCount => count t s (firstn i (tasks s) ++ skipn (S i) (tasks s))
          end
      end
  end.
Definition run (p : pool) (l : list event) : state := fold_left (step p) l init.
(* Calls that are finished before the next one starts *)
Definition one_after_another (l : list call) : list event := flat_map (fun c => [Begin c; Continue 0; Continue 0; Continue 0]) l.
