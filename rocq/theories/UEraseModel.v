(** Concurrent erases and lookups on the unordered containers when destroying a value leaves its bytes in place, that is for value types
    with a trivial destructor: src/stdgpu/impl/unordered_base_detail.cuh try_erase 811-913, whose calls 842 and 887 of
    allocator_traits::destroy (memory_detail.h 607-612, 664-670) are then without effect.  All other steps are those of UConcModel.v. *)
From Verif Require Import Base Conc SlotModel VectorModel UnorderedModel UConcModel.

Section estep.
  Context {K V : Type} (kf : V -> K) (hash : K -> Z) (keq : K -> K -> bool) (bc E : nat).
  Definition estep (tid : nat) (s : cshared V) (t : cthread K V) : option (cshared V * cthread K V) :=
    match c_pc t with
    | XDesB p =>                                                            (* 842 *)
      match c_prog t, c_values s !! p with _ :: _, Some (Some _) => Some (s, cgo t (XUnlB p true)) | _, _ => None end
    | XDes p q =>                                                           (* 887 *)
      match c_prog t, c_values s !! p with _ :: _, Some (Some _) => Some (s, cgo t (XPush p q (push_call p))) | _, _ => None end
    | _ => ustep kf hash keq bc E tid s t
    end.
  (** the state after a kernel as the state of a container used by one caller: the values of entries that are not occupied are no objects
      any more, their bytes are not looked at (u_values holds None there) *)
  Definition ended (s : cshared V) : cshared V :=
    {| c_values := imap (fun p o => match (c_occ s !! p : option bool) with Some true => o | _ => None end) (c_values s); c_off := c_off s; c_occ := c_occ s; c_locks := c_locks s; c_count := c_count s; c_ex := c_ex s |}.
End estep.
