(** Heterogeneous lookups (C72). *)
From Verif Require Import Base VectorModel UnorderedModel UnorderedSpec UnorderedProps ULikeModel ULikeProofs.

(** C72: on every container produced by any history of calls, and for every object x of any other type, such that stored keys the
    key equality takes for equal to x have the hash value of x: find(x) is defined, ends and returns the position of a stored value whose key equals x, or end() exactly if
    no stored key equals x; contains(x) and count(x) tell which. *)
Theorem C72_transparent_lookup : forall (K V L : Type) (kf : V -> K) (hash : K -> Z) (keq : K -> K -> bool) (opt : bool) (ord : nat -> list nat),
  key_equality keq -> hash_respects keq hash -> any_order ord -> forall buckets excess, sizes_ok buckets excess ->
  forall fuel, (2 <= fuel)%nat -> forall u0 u, reachable kf hash keq opt ord fuel buckets excess u0 u ->
  forall (hashL : L -> Z) (eqL : K -> L -> bool) x, (forall p v, u_value u p = Ret v -> eqL (kf v) x = true -> hashL x = hash (kf v)) ->
  (exists p v, find_like kf hashL eqL u x = Ret p /\ p <> total_count u /\ u_value u p = Ret v /\ eqL (kf v) x = true /\
     contains_like kf hashL eqL u x = Ret true /\ count_like kf hashL eqL u x = Ret 1) \/
  ((forall p v, u_value u p = Ret v -> eqL (kf v) x = false) /\
     find_like kf hashL eqL u x = Ret (total_count u) /\ contains_like kf hashL eqL u x = Ret false /\ count_like kf hashL eqL u x = Ret 0).
Proof.
  intros K V L kf hash keq opt ord Hk Hh Ho bc E Hs fuel Hf u0 u R hashL eqL x Hx. destruct (reach_rep kf hash keq opt ord Hk Hh Ho bc E Hs fuel u0 u Hf R) as (Lk & G & st & R').
  destruct (find_like_rep kf hash keq opt ord Hk Hh Ho bc E Hs hashL eqL Lk u G st x R') as (p & Ef & H); [intros v q Hv Hm; symmetry; exact (Hx q v Hv Hm)|].
  unfold count_like, contains_like. rewrite Ef. cbn [obind]. destruct H as [[-> H] |[Hp (v & Hv & Hm)]].
  - right. rewrite Z.eqb_refl. auto.
  - left. exists p, v. rewrite (proj2 (Z.eqb_neq p (total_count u))) by lia. cbn. repeat split; auto. lia.
Qed.
(** if x stands for the key k (same hash value, equal to the same keys) the heterogeneous calls do what the calls with k do *)
Theorem C72_stands_for_key : forall (K V L : Type) (kf : V -> K) (hash : K -> Z) (keq : K -> K -> bool) (hashL : L -> Z) (eqL : K -> L -> bool) (u : utab V) x k,
  hashL x = hash k -> (forall k', eqL k' x = keq k' k) ->
  find_like kf hashL eqL u x = u_find kf hash keq u k /\ contains_like kf hashL eqL u x = u_contains kf hash keq u k /\ count_like kf hashL eqL u x = u_count_of kf hash keq u k.
Proof.
  intros K V L kf hash keq hashL eqL u x k H1 H2. pose proof (same_lookup kf hash keq hashL eqL u x k H1 H2) as E.
  unfold count_like, contains_like, u_count_of, u_contains. rewrite E. auto.
Qed.
Print Assumptions C72_transparent_lookup.
Print Assumptions C72_stands_for_key.
(** the condition on the hash is needed: keys mod 10 taken for equal to x, but hashed like x itself, is a lookup in the wrong bucket; and in the container of
    C34_ex a lookup with a pair (tens, ones) finds the values 2 and 12 *)
Definition pair_hash (x : Z * Z) : Z := ex_hash (10 * fst x + snd x).
Definition pair_eq (k : Z) (x : Z * Z) : bool := k =? 10 * fst x + snd x.
Example C72_ex : exists u0 u, ex_table = Ret (u0, u) /\ reachable (fun v => v) ex_hash Z.eqb false (fun n => rev (seq 0 n)) 2 4 3 u0 u /\
  (forall x k, pair_eq k x = true -> pair_hash x = ex_hash k) /\
  find_like (fun v => v) pair_hash pair_eq u (0, 2) = Ret 6 /\ contains_like (fun v => v) pair_hash pair_eq u (1, 2) = Ret true /\ count_like (fun v => v) pair_hash pair_eq u (1, 3) = Ret 0 /\
  contains_like (fun v => v) (fun x => ex_hash x) (fun k x => k mod 10 =? x mod 10) u 13 = Ret false.
Proof.
  destruct C34_ex as (u0 & u & u' & E & R & _). exists u0, u. split; [exact E|]. split; [exact R|]. split.
  { intros [a b] k H. unfold pair_eq in H. apply Z.eqb_eq in H. rewrite H. reflexivity. }
  unfold ex_table in E. vm_compute in E. injection E as <- <-. vm_compute. auto.
Qed.
