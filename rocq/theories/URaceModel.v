(** Which accesses of the concurrent calls of UConcModel.v / UEraseModel.v go to plain memory, that is to objects that are not atomic: the
    values (unordered_base.cuh 526 _values), the offsets (528 _offsets) and the elements of the vector _excess_list_positions (534;
    vector.cuh 587 _data).  _occupied, _locks, _occupied_count and the vector's counter, occupancy and locks are atomics. *)
From Verif Require Import Base Conc SlotModel VectorModel UnorderedModel UConcModel.

Inductive place := VALUE (p : nat) | OFFSET (p : nat) | EXCESS (p : nat).

(** the plain access of the next step of a running pop_back()/push_back() on _excess_list_positions, if it has one: true for a write.
    vector_detail.cuh 243 (pop_back copies _data[0] first), 268-271, 210-212.  Its elements are of type index_t, so destroying one (272)
    accesses nothing. *)
Definition excess_access (q : qthread Z) : option (place * bool) :=
  match q_prog q, q_pc q with
  | QPop _ :: _, QIdle => Some (EXCESS 0, false)
  | QPop _ :: _, QRead p => Some (EXCESS p, false)
  | QPush _ _ :: _, QConstruct p => Some (EXCESS p, true)
  | _, _ => None
  end.

Section access.
  Context {K V : Type} (kf : V -> K) (hash : K -> Z) (bc : nat).
  (** the plain access of the next step of a thread (unordered_base_detail.cuh).  Destroying a value of a type with trivial destructor
      (842, 887) accesses nothing. *)
  Definition plain_access (t : cthread K V) : option (place * bool) :=
    match c_prog t with
    | [] => None
    | op :: _ =>
      match c_pc t with
      | FVal _ i => Some (VALUE i, false)                                                          (* 661, 674 *)
      | FOff _ i | FAdd _ i => Some (OFFSET i, false)                                              (* 669, 671 *)
      | EOff _ i | EAdd _ i => Some (OFFSET i, false)                                              (* 922, 924 *)
      | POff _ i _ | PAdd _ i _ => Some (OFFSET i, false)                                          (* 940, 943 *)
      | IConB => match bucket_of hash bc (op_key kf op) with Some b => Some (VALUE b, true) | None => None end   (* 733 *)
      | IConL _ p => Some (VALUE p, true)                                                          (* 777 *)
      | IOffL _ p => Some (OFFSET p, true)                                                         (* 778 *)
      | ILinkL e _ => Some (OFFSET e, true)                                                        (* 786 *)
      | XTest p _ | XAdd1 p _ => Some (OFFSET p, false)                                            (* 873, 876 *)
      | XAdd2 _ q _ => Some (OFFSET q, false)                                                      (* 876 *)
      | XPut _ q _ => Some (OFFSET q, true)                                                        (* 876, 879 *)
      | IPop _ q | XPush _ _ q => excess_access q
      | _ => None
      end
    end.
  (** two threads are about to access the same plain object, one of them to write it: a data race *)
  Definition races (t t' : cthread K V) (x : place) : Prop :=
    exists w w', plain_access t = Some (x, w) /\ plain_access t' = Some (x, w') /\ (w = true \/ w' = true).
End access.
