(** Constructor and destructor calls of the array functions of memory_detail.h (MemoryModel.v models their allocations and bytes).  An element is the object it
    was constructed as: a number, given in the order of the constructor calls; memcpy copies it like any other bytes (what an element that owns a resource, say
    a pointer, looks like).  None is raw memory.  An allocation that fails ends the program (CUDA, HIP: std::terminate) or gives nullptr (OpenMP), which behaves
    like an array of 0 elements here; nullptr is the empty list.  The copies of default_value made for the parameter (173, 205) and the functor (86) are destroyed
    by the end of the call and not counted. *)
From Verif Require Import Base.

Notation elements := (list (option nat)).
Record lives := { l_next : nat (* objects constructed so far *); l_destroyed : list nat (* destructor calls, in order *); l_arrays : list elements }.
Definition lives0 : lives := {| l_next := 0; l_destroyed := []; l_arrays := [] |}.
Definition with_arrays (s : lives) (a : list elements) : lives := {| l_next := l_next s; l_destroyed := l_destroyed s; l_arrays := a |}.

Section life.
  (** STDGPU_DETAIL_IS_DEVICE_COMPILED; is_destroy_optimizable<T>() (35-40); order of the iterations of a parallel loop *)
  Context (device_compiled optimizable : bool) (ord : nat -> list nat).

  (** 672-690, 76-96 uninitialized_fill: construct_at at every index *)
  Definition construct_step (sa : lives * elements) (i : nat) : lives * elements :=
    let '(s, a) := sa in ({| l_next := S (l_next s); l_destroyed := l_destroyed s; l_arrays := l_arrays s |}, <[i := Some (l_next s)]> a).
  (** 566-581 allocate_filled *)
  Definition lallocate_filled (s : lives) (n : nat) : lives * elements := fold_left construct_step (ord n) (s, replicate n None).
  (** 156-167, 718-733 destroy: destroy_at at every index; not for raw memory *)
  Definition destroy_step (a : elements) (acc : outcome lives) (i : nat) : outcome lives :=
    let! s := acc in
    match a !! i with
    | Some (Some x) => Ret {| l_next := l_next s; l_destroyed := l_destroyed s ++ [x]; l_arrays := l_arrays s |}
    | _ => UB
    end.
  (** 583-597 deallocate_filled *)
  Definition ldeallocate_filled (s : lives) (a : elements) : outcome lives :=
    if optimizable then Ret s else fold_left (destroy_step a) (ord (length a)) (Ret s).
  (** 346-416 the copy functions with the range check (C45): the bytes of n elements, or nothing *)
  Definition lcopy (src : elements) (n : nat) (dst : elements) : elements :=
    if (n <=? length src)%nat && (n <=? length dst)%nat then take n src ++ drop n dst else dst.
  (** 266-344 copyCreateDevice2HostArray and the three others *)
  Definition lcopy_create (src : elements) (n : nat) : elements := lcopy src n (replicate n None).
  (** 205-223, 252-264 *)
  Definition lcreate_host (s : lives) (n : nat) : lives * elements := lallocate_filled s n.
  Definition ldestroy_host (s : lives) (a : elements) : outcome lives := ldeallocate_filled s a.
  (** 175-203 *)
  Definition lcreate_device (s : lives) (n : nat) : outcome (lives * elements) :=
    if device_compiled then Ret (lallocate_filled s n)
    else
      let (s, h) := lcreate_host s n in
      let d := lcopy_create h n in
      let! s := ldestroy_host s h in Ret (s, d).
  (** 225-250 *)
  Definition ldestroy_device (s : lives) (a : elements) : outcome lives :=
    if device_compiled then ldeallocate_filled s a
    else if optimizable then Ret s
    else ldestroy_host s (lcopy_create a (length a)).

  (** calls on arrays, which are named by their position in the order of creations *)
  Inductive lop := LCreateDevice (n : nat) | LCreateHost (n : nat) | LDestroyDevice (k : nat) | LDestroyHost (k : nat)
  | LCopyCreate (k n : nat) | LCopy (k n j : nat).
  Definition life_step (s : lives) (op : lop) : outcome lives :=
    match op with
    | LCreateDevice n => let! (s, a) := lcreate_device s n in Ret (with_arrays s (l_arrays s ++ [a]))
    | LCreateHost n => let (s, a) := lcreate_host s n in Ret (with_arrays s (l_arrays s ++ [a]))
    | LDestroyDevice k =>
      match l_arrays s !! k with Some a => let! s := ldestroy_device s a in Ret (with_arrays s (<[k := []]> (l_arrays s))) | None => UB end
    | LDestroyHost k =>
      match l_arrays s !! k with Some a => let! s := ldestroy_host s a in Ret (with_arrays s (<[k := []]> (l_arrays s))) | None => UB end
    | LCopyCreate k n =>
      match l_arrays s !! k with Some a => Ret (with_arrays s (l_arrays s ++ [lcopy_create a n])) | None => UB end
    | LCopy k n j =>
      match l_arrays s !! k, l_arrays s !! j with Some a, Some b => Ret (with_arrays s (<[j := lcopy a n b]> (l_arrays s))) | _, _ => UB end
    end.
  Fixpoint life_run (s : lives) (ops : list lop) : outcome lives :=
    match ops with [] => Ret s | op :: ops => let! s := life_step s op in life_run s ops end.
End life.
