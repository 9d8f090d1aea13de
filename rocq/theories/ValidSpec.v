(** What valid() of an unordered container is relied on for, in any state of the container's memory *)
From Verif Require Import Base SlotModel Lifetime VectorModel UnorderedModel.

(** the arrays have the sizes they were created with *)
Definition arrays_ok {V} (u : utab V) : Prop :=
  0 < u_bc u <= total_count u /\ total_count u <= INT_MAX /\ length (u_off u) = length (u_occ u).
(** entry p is marked as occupied and holds the value v *)
Definition holds_at {V} (u : utab V) (p : nat) (v : V) : Prop := u_occ u !! p = Some true /\ u_value u (Z.of_nat p) = Ret v.
(** what valid() does not look at: [st] are the positions in the list of free entries, the next one to be used last.  They are exactly
    the entries behind the buckets that hold nothing, no list leads through an entry that holds nothing, and (for destructors) the values whose
    lifetime has begun and not ended are exactly the stored ones *)
Record free_ok {V} (opt : bool) (u : utab V) (st : list nat) : Prop := {
  fo_values : length (u_values u) = length (u_occ u);
  fo_indices : length (u_indices u) = length (u_occ u);
  fo_locks : length (u_locks u) = length (u_occ u);
  fo_empty : forall p, u_occ u !! p = Some false -> u_values u !! p = Some None;
  fo_once : NoDup st;
  fo_free : forall p, p ∈ st <-> (Z.to_nat (u_bc u) <= p)%nat /\ u_occ u !! p = Some false;
  fo_links : forall p o, (p < Z.to_nat (u_bc u))%nat \/ u_occ u !! p = Some true -> u_off u !! p = Some o -> o <> 0 -> u_occ u !! Z.to_nat (Z.of_nat p + o) = Some true;
  fo_excess : u_excess u = {| v_n := Z.of_nat (length st); v_data := v_data (u_excess u); v_occ := v_occ (u_excess u);
     v_locks := replicate (length (u_occ u) - Z.to_nat (u_bc u)) false; v_ev := v_ev (u_excess u) |};
  fo_capacity : length (v_data (u_excess u)) = (length (u_occ u) - Z.to_nat (u_bc u))%nat /\ length (v_occ (u_excess u)) = (length (u_occ u) - Z.to_nat (u_bc u))%nat;
  fo_stack : forall i, (i < length (u_occ u) - Z.to_nat (u_bc u))%nat ->
     v_data (u_excess u) !! i = Some (Z.of_nat <$> st !! i) /\ v_occ (u_excess u) !! i = Some (bool_decide (i < length st)%nat);
  fo_life : opt = false -> lifetime_ok nothing (u_ev u) /\
     forall p, live_after nothing (u_ev u) (InSlot p) = match u_values u !! p with Some (Some _) => true | _ => false end
}.
