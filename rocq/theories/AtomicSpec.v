(** Specification vocabulary: sequential histories of operations on one cell. *)
From Verif Require Import Base AtomicModel.

(** [legal newv v0 h v]: executing the operations of h one after another, starting with v0, returns
    exactly the recorded values (each operation returns the value it finds) and ends with v. *)
Fixpoint legal {V Op} (newv : Op -> V -> V) (v0 : V) (h : list (nat * Op * V)) (v : V) : Prop :=
  match h with
  | [] => v = v0
  | (_, op, r) :: h => r = v0 /\ legal newv (newv op v0) h v
  end.

(** What each operation is documented to store (std::atomic), for an integer type of w bits: sums and differences
    are taken modulo 2^w and represented in the range of the type. *)
Definition in_range (signed : bool) (w v : Z) : Prop :=
  if signed then - 2 ^ (w - 1) <= v < 2 ^ (w - 1) else 0 <= v < 2 ^ w.
Definition stores (signed : bool) (w : Z) (op : aop) (old new : Z) : Prop :=
  in_range signed w new /\
  match op with
  | ALoad => new = old
  | AStore d | AExchange d => new = d
  | ACas e d => (old = e -> new = d) /\ (old <> e -> new = old)
  | AAdd a => (new - (old + a)) mod 2 ^ w = 0
  | ASub a => (new - (old - a)) mod 2 ^ w = 0
  | AAnd a => forall i, 0 <= i -> Z.testbit new i = Z.testbit old i && Z.testbit a i
  | AOr a => forall i, 0 <= i -> Z.testbit new i = Z.testbit old i || Z.testbit a i
  | AXor a => forall i, 0 <= i -> Z.testbit new i = xorb (Z.testbit old i) (Z.testbit a i)
  | AMin a => new = Z.min old a
  | AMax a => new = Z.max old a
  | AIncMod m => old < m -> new = (old + 1) mod m
  | ADecMod m => old < m -> new = (old - 1) mod m
  end.
(** the arguments of an operation are values of the type; inc/dec_mod exist for unsigned types only *)
Definition args_in_range (signed : bool) (w : Z) (op : aop) : Prop :=
  match op with
  | ALoad => True
  | AStore a | AExchange a | AAdd a | ASub a | AAnd a | AOr a | AXor a | AMin a | AMax a => in_range signed w a
  | ACas e d => in_range signed w e /\ in_range signed w d
  | AIncMod m | ADecMod m => signed = false /\ 0 < m < 2 ^ w
  end.

(** The operators: ++a, --a, a op= x and a = x return the value they stored, a++ and a-- the value they replaced. *)
Definition operator_means (signed : bool) (w : Z) (o : aoperator) (old new result : Z) : Prop :=
  match o with
  | PreInc => stores signed w (AAdd 1) old new /\ result = new
  | PostInc => stores signed w (AAdd 1) old new /\ result = old
  | PreDec => stores signed w (ASub 1) old new /\ result = new
  | PostDec => stores signed w (ASub 1) old new /\ result = old
  | AddAssign a => stores signed w (AAdd a) old new /\ result = new
  | SubAssign a => stores signed w (ASub a) old new /\ result = new
  | AndAssign a => stores signed w (AAnd a) old new /\ result = new
  | OrAssign a => stores signed w (AOr a) old new /\ result = new
  | XorAssign a => stores signed w (AXor a) old new /\ result = new
  | Assign d => new = d /\ result = d
  end.
Definition operator_arg_in_range (signed : bool) (w : Z) (o : aoperator) : Prop :=
  match o with
  | AddAssign a | SubAssign a | AndAssign a | OrAssign a | XorAssign a | Assign a => in_range signed w a
  | _ => True
  end.

(** the operations (with results) of thread i in a history *)
Definition by_thread {V Op} (i : nat) (h : list (nat * Op * V)) : list (Op * V) :=
  (fun e => (e.1.2, e.2)) <$> filter (fun e : nat * Op * V => e.1.1 = i) h.

(** every thread has executed its whole program *)
Definition all_done {V Op} (ls : list (@athread V Op)) : Prop := forall l, l ∈ ls -> a_prog l = [] /\ a_pc l = AIdle.

(** ** What fences mean: a thread performs accesses (labelled by location) and fences in program order;
    hardware and compiler may exchange two neighbouring accesses, never an access with a fence. *)
Inductive mevent := MFence | MAcc (loc : nat).
Inductive reorder1 : list mevent -> list mevent -> Prop :=
| Reorder1 l1 x y l2 : reorder1 (l1 ++ MAcc x :: MAcc y :: l2) (l1 ++ MAcc y :: MAcc x :: l2).
Definition reorders : list mevent -> list mevent -> Prop := rtc reorder1.
(** the events of an operation whose cell is at location loc *)
Definition at_loc (loc : nat) (t : list fevent) : list mevent :=
  (fun e => match e with Fence => MFence | Access => MAcc loc end) <$> t.

