(** Model of the iterators over arrays and of the ranges: impl/iterator_detail.h 28-160 (make_device, size, device_begin, device_end and their host and const
    variants), impl/ranges_detail.h 22-190, ranges.h 290-294.  device_ptr and host_ptr are pointers (addresses in Z); T has sz bytes. *)
From Verif Require Import Base MemoryModel.

Section ranges.
  Context (sz : Z).
  (** iterator_detail.h 64-90 and the const variants 112-160: host_begin/device_begin, host_end/device_end *)
  Definition array_begin (p : Z) : Z := p.
  Definition array_end (s : mem) (p : Z) : Z := p + array_size sz s p * sz.
  (** device_range / host_range: ranges_detail.h 28-63, 81-116 *)
  Record range := { r_begin : Z; r_end : Z }.
  Definition range_pair (b e : Z) : range := {| r_begin := b; r_end := e |}.
  Definition range_n (p n : Z) : range := {| r_begin := p; r_end := p + n * sz |}.
  Definition range_array (s : mem) (p : Z) : range := range_n p (array_size sz s p).
  (** 65-77, 118-130: the difference of two pointers is defined if it is a multiple of the element size *)
  Definition range_size (r : range) : outcome Z := require (r_end r - r_begin r) mod sz =? 0 in Ret ((r_end r - r_begin r) / sz).
  Definition range_empty (r : range) : outcome bool := let! n := range_size r in Ret (n =? 0).
  (** the addresses that `for (it = begin; it != end; ++it)` visits, if the loop ends *)
  Inductive visits (e : Z) : Z -> list Z -> Prop :=
  | visits_end : visits e e []
  | visits_step a l : a <> e -> visits e (a + sz) l -> visits e a (a :: l).
  Definition iterates (r : range) (l : list Z) : Prop := visits (r_end r) (r_begin r) l.
End ranges.

(** transform_range: ranges_detail.h 132-176; a thrust::transform_iterator is the underlying iterator and the function, *it = f( *underlying) *)
Record trange (B : Type) := { tr_range : range; tr_fun : Z -> B }.
Arguments tr_range {_}. Arguments tr_fun {_}.
Definition transform_range {B} (r : range) (f : Z -> B) : trange B := {| tr_range := r; tr_fun := f |}.
Definition trange_size {B} (sz : Z) (t : trange B) : outcome Z := range_size sz (tr_range t).
Definition trange_empty {B} (sz : Z) (t : trange B) : outcome bool := let! n := trange_size sz t in Ret (n =? 0).
(** the values that iterating over it yields *)
Definition yields {B} (sz : Z) (t : trange B) (l : list B) : Prop := exists as_, iterates sz (tr_range t) as_ /\ l = tr_fun t <$> as_.
(** select, ranges_detail.h 181-206, and device_indexed_range / host_indexed_range, ranges.h 285-294: the addresses of values[i] for the 4 byte indices i that
    the range runs over (decode: the int stored in 4 bytes) *)
Definition read4 (s : mem) (a : Z) : list Z := [bytes s a; bytes s (a + 1); bytes s (a + 2); bytes s (a + 3)].
Definition select (sz : Z) (values i : Z) : Z := values + i * sz.
Definition indexed_range (decode : list Z -> Z) (sz : Z) (s : mem) (indices : range) (values : Z) : trange Z :=
  transform_range indices (fun a => select sz values (decode (read4 s a))).
