(** Specification of device_unique_object: who owns each object.  Objects are numbered in the order of their creations; an object has one owner
    (a variable) from its creation on, until it has none any more. *)
From Verif Require Import Base MemoryModel ContainerMemModel ContainerMemSpec UniqueModel.

(** the variables declared by a history, in order: still in scope? *)
Definition scopes_next (vs : list bool) (op : uop) : list bool :=
  match op with UNull | UMake _ | UMoveNew _ => vs ++ [true] | UMoveAssign _ _ => vs | UScopeEnd i => <[i := false]> vs end.
Definition scopes (ops : list uop) : list bool := fold_left scopes_next ops [].
(** only variables in scope are used; objects are created inside the contracts of their types; arrays are not objects with createDeviceObject *)
Definition uop_ok (vs : list bool) (op : uop) : Prop :=
  match op with
  | UNull => True
  | UMake k => kind_ok k /\ match k with KDeviceArray _ _ _ | KHostArray _ _ _ => False | _ => True end
  | UMoveNew j => vs !! j = Some true
  | UMoveAssign i j => vs !! i = Some true /\ vs !! j = Some true
  | UScopeEnd i => vs !! i = Some true
  end.
Fixpoint unique_ok (vs : list bool) (ops : list uop) : Prop :=
  match ops with [] => True | op :: ops => uop_ok vs op /\ unique_ok (scopes_next vs op) ops end.

(** the kinds of the objects a history creates *)
Definition created (ops : list uop) : list kind := omap (fun op => match op with UMake k => Some k | _ => None end) ops.
(** the owner of one object after an operation (nv: number of variables declared before it) *)
Definition owner_next (nv : nat) (op : uop) (owner : option nat) : option nat :=
  match op, owner with
  | UMoveNew j, Some v => Some (if bool_decide (v = j) then nv else v)
  | UMoveAssign i j, Some v => if bool_decide (v = j) then Some i else if bool_decide (v = i) then None else Some v
  | UScopeEnd i, Some v => if bool_decide (v = i) then None else Some v
  | _, _ => owner
  end.
(** the owners of all objects: None for an object that is not owned any more *)
Definition owners_next (st : nat * list (option nat)) (op : uop) : nat * list (option nat) :=
  let '(nv, ow) := st in
  let ow' := owner_next nv op <$> ow in
  match op with
  | UNull | UMoveNew _ => (S nv, ow')
  | UMake _ => (S nv, ow' ++ [Some nv])
  | _ => (nv, ow')
  end.
Definition owners (ops : list uop) : list (option nat) := (fold_left owners_next ops (0%nat, [])).2.

(** the object a variable holds *)
Definition held (v : uvar) : option (nat * object) := match v with Holds p => p | Ended => None end.
(** the blocks of the objects that the variables hold *)
Definition held_blocks (ks : list kind) (vs : list uvar) : list (Z * Z * mtype) :=
  mjoin ((fun v => match held v with Some (id, o) => match ks !! id with Some k => object_blocks k o | None => [] end | None => [] end) <$> vs).

(** states of programs *)
Definition reachable_unique (malloc : nat -> list (Z * Z) -> Z -> Z) (dc : bool) (ord : nat -> list nat) (ops : list uop) (st : uprog) : Prop :=
  unique_ok [] ops /\ unique_run malloc dc ord unique0 ops = Ret st.
