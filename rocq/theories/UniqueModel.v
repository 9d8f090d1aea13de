(** Model of device_unique_object (memory.h 246-312, memory_detail.h 421-485): a std::unique_ptr to the container object whose deleter calls
    T::destroyDeviceObject.  A program declares variables of this type, moves them (the implicit move constructor and move assignment, which are those
    of std::unique_ptr) and leaves their scopes.  Objects are those of ContainerMemModel.v; the execution policy of the second
    constructor (440-452) only selects where the loops of createDeviceObject and destroyDeviceObject run and is not represented.
    The block that `new T` takes from the host heap for the handle is not stdgpu's memory and is not represented. *)
From Verif Require Import Base MemoryModel ContainerMemModel.

(** a variable: out of scope, or alive with an empty pointer or with a pointer to an object.  The number is a label for the object
    (its position in the order of creations); the code has no such field. *)
Inductive uvar := Ended | Holds (p : option (nat * object)).
Record uprog := { up_mem : mem; up_vars : list uvar; up_created : nat; up_destroyed : list nat (* labels of the objects passed to destroyDeviceObject, in order *) }.

Inductive uop :=
| UNull                          (* device_unique_object<T> v(null_object);   memory_detail.h 421-425 *)
| UMake (k : kind)               (* device_unique_object<T> v(args...);       memory_detail.h 427-452 *)
| UMoveNew (j : nat)             (* device_unique_object<T> v(std::move(vj)); implicit, unique_ptr(unique_ptr&& u): the pointer is u.release() *)
| UMoveAssign (i j : nat)        (* vi = std::move(vj);                       implicit, unique_ptr::operator=: reset(u.release()) *)
| UScopeEnd (i : nat).           (* the scope of vi ends *)

Section unique.
  Context (malloc : nat -> list (Z * Z) -> Z -> Z) (device_compiled : bool) (ord : nat -> list nat).

  (** the deleter, memory_detail.h 431-435, 446-450; std::unique_ptr calls it for non-null pointers only *)
  Definition deleter (st : uprog) (p : option (nat * object)) : outcome uprog :=
    match p with
    | None => Ret st
    | Some (id, o) =>
      let! (s, _) := destroy_object malloc device_compiled false (up_mem st) o in
      Ret {| up_mem := s; up_vars := up_vars st; up_created := up_created st; up_destroyed := up_destroyed st ++ [id] |}
    end.
  Definition set_vars (st : uprog) (vs : list uvar) : uprog :=
    {| up_mem := up_mem st; up_vars := vs; up_created := up_created st; up_destroyed := up_destroyed st |}.

  Definition unique_step (st : uprog) (op : uop) : outcome uprog :=
    match op with
    | UNull => Ret (set_vars st (up_vars st ++ [Holds None]))
    | UMake k =>
      let! (s, o) := create_object malloc device_compiled ord (up_mem st) k in
      Ret {| up_mem := s; up_vars := up_vars st ++ [Holds (Some (up_created st, o))]; up_created := S (up_created st); up_destroyed := up_destroyed st |}
    | UMoveNew j =>
      match up_vars st !! j with
      | Some (Holds p) => Ret (set_vars st (<[j := Holds None]> (up_vars st) ++ [Holds p]))
      | _ => UB
      end
    | UMoveAssign i j =>
      match up_vars st !! j with
      | Some (Holds p) =>
        let vs := <[j := Holds None]> (up_vars st) in (* release *)
        match vs !! i with
        | Some (Holds old) => deleter (set_vars st (<[i := Holds p]> vs)) old (* reset *)
        | _ => UB
        end
      | _ => UB
      end
    | UScopeEnd i =>
      match up_vars st !! i with
      | Some (Holds p) => deleter (set_vars st (<[i := Ended]> (up_vars st))) p
      | _ => UB
      end
    end.
  Fixpoint unique_run (st : uprog) (ops : list uop) : outcome uprog :=
    match ops with [] => Ret st | op :: ops => let! st := unique_step st op in unique_run st ops end.
  Definition unique0 : uprog := {| up_mem := mem0; up_vars := []; up_created := 0; up_destroyed := [] |}.

  (** operator bool, memory_detail.h 480-485 *)
  Definition unique_bool (v : uvar) : outcome bool := match v with Holds (Some _) => Ret true | Holds None => Ret false | Ended => UB end.
  (** operator* and operator->, memory_detail.h 455-478: the object; dereferencing a null pointer is undefined *)
  Definition unique_deref (v : uvar) : outcome object := match v with Holds (Some (_, o)) => Ret o | _ => UB end.
End unique.
