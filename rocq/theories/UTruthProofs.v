(** C81: what a call in an arbitrary kernel reports, and when it was so. *)
From Verif Require Import Base Conc SlotModel SlotSpec SlotProofs VectorModel VectorProofs UnorderedModel UnorderedSpec UnorderedProofs UConcModel UConcSpec UEraseModel UMixShape UMixSpec UOneDefs USepSpec UAnySpec UAnyDefs UAnyStep UAnyTop UTruthSpec.

Section truth.
  Context {K V : Type} (kf : V -> K) (hash : K -> Z) (keq : K -> K -> bool) (bc E : nat).
  Hypothesis HP : key_equality keq /\ hash_respects keq hash /\ sizes_ok bc E.
  Notation bkt := (bkt hash bc).
  Notation ainv M0 := (ainv kf hash keq bc E M0).
  Local Notation HB := (mx_bkt hash keq bc E HP).
  Local Notation PL f I := (f kf hash keq bc E _ _ _ _ _ I) (only parsing).
  Notation config := (cshared V * list (cthread K V))%type.
  Implicit Types (s : cshared V) (t u : cthread K V) (op : cop K V) (c : config).

  (** the successful calls of a thread, with the running one from its effect on *)
  Definition pend op (pc : upc) : list (cop K V * cret) :=
    match pc with
    | IUnlB (Some p) | ILinkL _ p | IUnlL _ (Some p) => [(op, RInserted p)]
    | XCntB _ | XDesB _ | XUnlB _ true | XCnt _ _ | XDes _ _ | XPush _ _ _ | XUnl1 _ _ true | XUnl2 _ true => [(op, RErased true)]
    | _ => []
    end.
  Definition done t : list (cop K V * cret) := successes (c_log t) ++ match c_prog t with op :: _ => pend op (c_pc t) | [] => [] end.
  (** an insert that has written its value to entry [x] and not yet made it visible *)
  Definition writes u (x : nat) (v : V) : Prop := exists rest, c_prog u = CInsert v :: rest /\
    match c_pc u with ICntB | ISetB => bkt (kf v) = x | IOffL _ p | ICntL _ p | ISetL _ p => p = x | _ => False end.
  (** what one step does to an entry *)
  Definition cell_step s t s' t' (x : nat) : Prop :=
    (c_values s' !! x = c_values s !! x /\ c_occ s' !! x = c_occ s !! x /\ (forall v, writes t x v -> writes t' x v)) \/
    c_occ s' !! x = Some true \/
    (c_occ s !! x = Some true /\ c_values s' !! x = c_values s !! x) \/
    (exists v, writes t' x v) \/
    c_values s' !! x = Some None.
  (** what a step that ends a call has seen *)
  Definition ends c t t' : Prop := c_log t' = c_log t \/ exists op r, c_pc t <> UIdle /\ c_log t' = c_log t ++ [(op, r)] /\
    match op, r with
    | CFind k, RFound (Some p) => exists x v, c_pc t = FVal x p /\ c_values c.1 !! p = Some (Some v) /\ keq (kf v) k = true
    | CInsert w, RNotInserted => no_room E c \/ exists p x v, c_pc t = FVal x p /\ c_values c.1 !! p = Some (Some v) /\ keq (kf v) (kf w) = true
    | _, _ => True
    end.

  Lemma content_value s x w : c_occ s !! x = Some false -> same (content_of s) (content_of (put_value s x w)).
  Proof using. intros Hx p. unfold content_of. cbn [put_value c_occ c_values]. destruct (decide (x = p)) as [<- |Hne]; [rewrite Hx; reflexivity|]. rewrite list_lookup_insert_ne by exact Hne. reflexivity. Qed.
  Lemma content_set s x v : c_values s !! x = Some (Some v) -> c_occ s !! x = Some false -> content_of s x = None /\ changes (content_of s) (content_of (put_occ s x true)) x (Some v).
  Proof using.
    intros Hv Hx. split; [unfold content_of; rewrite Hx; reflexivity|]. intros q. unfold content_of. cbn [put_occ c_occ c_values]. case_decide as Hq.
    - subst q. rewrite list_lookup_insert by (eapply lookup_lt_Some; exact Hx). rewrite Hv. reflexivity.
    - rewrite list_lookup_insert_ne by congruence. reflexivity.
  Qed.
  Lemma content_reset s x v : c_values s !! x = Some (Some v) -> c_occ s !! x = Some true -> content_of s x = Some v /\ changes (content_of s) (content_of (put_occ s x false)) x None.
  Proof using.
    intros Hv Hx. split; [unfold content_of; rewrite Hx, Hv; reflexivity|]. intros q. unfold content_of. cbn [put_occ c_occ c_values]. case_decide as Hq.
    - subst q. rewrite list_lookup_insert by (eapply lookup_lt_Some; exact Hx). reflexivity.
    - rewrite list_lookup_insert_ne by congruence. reflexivity.
  Qed.

  Section step.
    Context M0 s ls F P i t op rest (I : ainv M0 s ls F P) (Hi : ls !! i = Some t) (Ep : c_prog t = op :: rest).
    Definition tgood s' t' : Prop :=
      ((same (content_of s) (content_of s') /\ done t' = done t) \/ exists x, effect kf keq (content_of s) x (content_of s') /\ done t' = done t ++ [x]) /\
      (forall x, cell_step s t s' t' x) /\ ends (s, ls) t t' /\ (forall x y, c_pc t' = FVal x y -> c_occ s' !! y = Some true).
    Definition wnext (pc pc' : upc) : Prop :=
      match pc with ICntB => pc' = ISetB | IOffL e p => pc' = ICntL e p | ICntL e p => pc' = ISetL e p | ISetB | ISetL _ _ => False | _ => True end.
    Lemma w_go pc x v : wnext (c_pc t) pc -> writes t x v -> writes (cgo t pc) x v.
    Proof using. intros Hn (r & E0 & H). exists r. split; [exact E0|]. cbn [cgo c_pc]. destruct (c_pc t); cbn [wnext] in Hn; try contradiction; subst pc; exact H. Qed.
    Lemma done_go pc : pend op pc = pend op (c_pc t) -> done (cgo t pc) = done t.
    Proof using Ep. intros H. unfold done. cbn [cgo c_prog c_log c_pc]. rewrite Ep, H. reflexivity. Qed.
    Lemma t_go s' pc : c_values s' = c_values s -> c_occ s' = c_occ s -> pend op pc = pend op (c_pc t) -> wnext (c_pc t) pc -> (forall x y, pc = FVal x y -> c_occ s' !! y = Some true) -> tgood s' (cgo t pc).
    Proof using Ep.
      intros Hv Ho Hp Hn Hf. split; [left; split; [intros q; unfold content_of; rewrite Hv, Ho; reflexivity|apply done_go; exact Hp]|]. split; [|split; [left; reflexivity|exact Hf]].
      intros x. left. rewrite Hv, Ho. split; [reflexivity|]. split; [reflexivity|]. intros v. apply w_go. exact Hn.
    Qed.
    Lemma t_fin s' r : c_values s' = c_values s -> c_occ s' = c_occ s -> pend op (c_pc t) = successes [(op, r)] -> wnext (c_pc t) UIdle -> c_pc t <> UIdle ->
      match op, r with
      | CFind k, RFound (Some p) => exists x v, c_pc t = FVal x p /\ c_values s !! p = Some (Some v) /\ keq (kf v) k = true
      | CInsert w, RNotInserted => no_room E (s, ls) \/ exists p x v, c_pc t = FVal x p /\ c_values s !! p = Some (Some v) /\ keq (kf v) (kf w) = true
      | _, _ => True
      end -> tgood s' (cfinish t op r).
    Proof using Ep.
      intros Hv Ho Hp Hn Hu He. split; [left; split; [intros q; unfold content_of; rewrite Hv, Ho; reflexivity|]|].
      - unfold done. cbn [cfinish c_prog c_log c_pc]. rewrite Ep, Hp. unfold successes. rewrite filter_app. destruct rest; rewrite app_nil_r; reflexivity.
      - split; [|split; [|intros x y H; discriminate]].
        + intros x. left. rewrite Hv, Ho. split; [reflexivity|]. split; [reflexivity|]. intros v (r0 & E0 & H). exfalso. destruct (c_pc t); cbn [wnext] in Hn; try contradiction; discriminate.
        + right. exists op, r. split; [exact Hu|]. split; [reflexivity|exact He].
    Qed.
    Lemma t_again s' b : c_values s' = c_values s -> c_occ s' = c_occ s -> pend op (c_pc t) = [] -> (forall pc, wnext (c_pc t) pc) -> tgood s' (again t b op).
    Proof using Ep. intros Hv Ho Hp Hn. assert (H : forall pc, pend op pc = [] -> (forall x y, pc <> FVal x y) -> tgood s' (cgo t pc)) by (intros pc H1 H2; apply t_go; auto; [congruence|intros x y ->; exfalso; eapply H2; reflexivity]). destruct op; apply H; try reflexivity; discriminate. Qed.
    (** the value of an entry that is not occupied changes *)
    Lemma t_value x w pc : c_occ s !! x = Some false -> (w = None /\ is_Some (c_values s !! x) \/ exists v, writes (cgo t pc) x v) -> pend op pc = pend op (c_pc t) -> (forall pc', wnext (c_pc t) pc') -> (forall x y, pc <> FVal x y) -> tgood (put_value s x w) (cgo t pc).
    Proof using Ep.
      intros Hx Hw Hp Hn Hf. split; [left; split; [apply content_value; exact Hx|apply done_go; exact Hp]|]. split; [|split; [left; reflexivity|intros y z Hz; exfalso; eapply Hf; exact Hz]].
      intros y. cbn [put_value c_values c_occ]. destruct (decide (x = y)) as [<- |Hne].
      - right. right. right. destruct Hw as [[-> [o Ho]]|Hw]; [right|left; exact Hw]. cbn. apply list_lookup_insert. eapply lookup_lt_Some; exact Ho.
      - left. cbn. rewrite list_lookup_insert_ne by exact Hne. split; [reflexivity|]. split; [reflexivity|]. intros v. apply w_go. apply Hn.
    Qed.
    Lemma t_occupy x v pc : op = CInsert v -> c_values s !! x = Some (Some v) -> c_occ s !! x = Some false -> (forall y w, writes t y w -> y = x) -> pend op (c_pc t) = [] -> pend op pc = [(op, RInserted x)] -> (forall x y, pc <> FVal x y) -> tgood (put_occ s x true) (cgo t pc).
    Proof using Ep.
      intros Eop Hv Hx Hw Hp Hp' Hf. destruct (content_set s x v Hv Hx) as [C1 C2]. split; [right|split; [|split; [left; reflexivity|intros y z Hz; exfalso; eapply Hf; exact Hz]]].
      - exists (op, RInserted x). split; [rewrite Eop; cbn [effect]; auto|]. unfold done. cbn [cgo c_prog c_log c_pc]. rewrite Ep, Hp, Hp', app_nil_r. reflexivity.
      - intros y. unfold cell_step. cbn [put_occ c_values c_occ]. destruct (decide (x = y)) as [<- |Hne].
        + right. left. apply list_lookup_insert. eapply lookup_lt_Some; exact Hx.
        + left. rewrite list_lookup_insert_ne by exact Hne. split; [reflexivity|]. split; [reflexivity|]. intros w Hu. apply Hw in Hu. congruence.
    Qed.
    Lemma t_vacate x k pc : op = CErase k -> UOneDefs.hit kf keq s x k -> c_occ s !! x = Some true -> (forall pc', wnext (c_pc t) pc') -> pend op (c_pc t) = [] -> pend op pc = [(op, RErased true)] -> (forall x y, pc <> FVal x y) -> tgood (put_occ s x false) (cgo t pc).
    Proof using Ep.
      intros Eop (v & Hv & Hk) Hx Hw Hp Hp' Hf. destruct (content_reset s x v Hv Hx) as [C1 C2]. split; [right|split; [|split; [left; reflexivity|intros y z Hz; exfalso; eapply Hf; exact Hz]]].
      - exists (op, RErased true). split; [rewrite Eop; cbn [effect]; eauto 6|]. unfold done. cbn [cgo c_prog c_log c_pc]. rewrite Ep, Hp, Hp', app_nil_r. reflexivity.
      - intros y. unfold cell_step. cbn [put_occ c_values c_occ]. destruct (decide (x = y)) as [<- |Hne].
        + right. right. left. auto.
        + left. rewrite list_lookup_insert_ne by exact Hne. split; [reflexivity|]. split; [reflexivity|]. intros w. apply w_go. apply Hw.
    Qed.
    Ltac gog Epc := apply t_go; rewrite ?Epc; try reflexivity; try exact Logic.I; try (intros ? ? ?; discriminate).
    Lemma tstep_at s' t' : ustep kf hash keq bc E i s t = Some (s', t') -> tgood s' t'.
    Proof using HP I Hi Ep.
      pose proof (r_kn kf hash keq bc E M0 s ls F P i t op rest I Hi Ep) as Hk. pose proof (HB (op_key kf op)) as Hb. unfold ustep. rewrite Ep, (mx_bucket hash keq bc E HP).
      pose proof t_fin as HF. pose proof t_again as HA. pose proof t_value as HVv. pose proof t_occupy as HO. pose proof t_vacate as HX. pose proof t_go as HG. 
      destruct (c_pc t) as [| | |c x|c x|c x|c x|c x|c x|c x pv|c x pv| | | | | | |r|e|e q|e p|e p|e p|e p|e p|e r|p|p|p|p|p ok|p q|p q|p|p q|p q|p q o|p q o|p q|p q|p q|p q x|p q ok|q ok] eqn:Epc; cbn [UAnyDefs.akn] in Hk; intros Hst.
      - (* UIdle *) injection Hst as <- <-. clear HF HA HVv HO HX. destruct op; apply HG; try reflexivity; try exact Logic.I; discriminate.
      - (* UFullCheck *) injection Hst as <- <-. destruct (_ =? _) eqn:Ee; [apply HF; try reflexivity; try exact Logic.I; [discriminate|]|apply HG; try reflexivity; try exact Logic.I; discriminate]. destruct op; [|exact Logic.I|exact Logic.I]. left. left. apply Z.eqb_eq. exact Ee.
      - injection Hst as <- <-. destruct (_ =? _) eqn:Ee; [apply HF; try reflexivity; try exact Logic.I; [discriminate|]|apply HG; try reflexivity; try exact Logic.I; discriminate]. destruct op; [|exact Logic.I|exact Logic.I]. left. right. apply Z.eqb_eq. exact Ee.
      - (* FOcc *) destruct (c_occ s !! x) as [o|] eqn:Ho; [|discriminate]. injection Hst as <- <-. destruct o; apply HG; try reflexivity; try exact Logic.I; [intros y z Hz; injection Hz as <- <-; exact Ho|discriminate].
      - (* FVal *) destruct Hk as [Hf _]. destruct (c_values s !! x) as [[v|]|] eqn:Hv; try discriminate. injection Hst as <- <-. destruct (keq (kf v) (op_key kf op)) eqn:Ek; [|apply HG; try reflexivity; try exact Logic.I; discriminate].
        destruct c as [| | |e ck| |p|p q]; cbn [after_find]; try (apply HG; try reflexivity; try exact Logic.I; discriminate).
        + apply HF; try reflexivity; try exact Logic.I; [discriminate|]. destruct op as [w|k|k]; try exact Logic.I. exists FUser, v. auto.
        + apply HF; try reflexivity; try exact Logic.I; [discriminate|]. destruct op as [w|k|k]; try exact Logic.I. right. exists x, FIns1, v. auto.
        + case_bool_decide; apply HG; try reflexivity; try exact Logic.I; discriminate.
        + case_bool_decide; apply HG; try reflexivity; try exact Logic.I; discriminate.
      - (* FOff *) destruct (c_off s !! x) as [o|] eqn:Ho; [|discriminate]. injection Hst as <- <-. destruct (o =? 0); [|apply HG; try reflexivity; try exact Logic.I; discriminate].
        destruct c as [| | |e ck| |p|p q]; cbn [after_find]; try (apply HG; try reflexivity; try exact Logic.I; discriminate).
        + apply HF; try reflexivity; try exact Logic.I; [discriminate|]. destruct op; exact Logic.I.
        + case_bool_decide; apply HG; try reflexivity; try exact Logic.I; discriminate.
        + apply HF; try reflexivity; try exact Logic.I; [discriminate|]. destruct op; exact Logic.I.
      - (* FAdd *) destruct (c_off s !! x) as [o|] eqn:Ho; [|discriminate]. destruct (next_entry x o) as [j|]; [|discriminate]. injection Hst as <- <-. apply HG; try reflexivity; try exact Logic.I; discriminate.
      - (* EOff *) destruct (c_off s !! x) as [o|] eqn:Ho; [|discriminate]. injection Hst as <- <-. destruct (o =? 0); [destruct c|]; apply HG; try reflexivity; try exact Logic.I; discriminate.
      - (* EAdd *) destruct (c_off s !! x) as [o|] eqn:Ho; [|discriminate]. destruct (next_entry x o) as [j|]; [|discriminate]. injection Hst as <- <-. apply HG; try reflexivity; try exact Logic.I; discriminate.
      - (* POff *) destruct (c_off s !! x) as [o|] eqn:Ho; [|discriminate]. injection Hst as <- <-. destruct (o =? 0); [|apply HG; try reflexivity; try exact Logic.I; discriminate]. destruct c; cbn [after_prev]; [|destruct (_ && _)]; apply HG; try reflexivity; try exact Logic.I; discriminate.
      - (* PAdd *) destruct (c_off s !! x) as [o|] eqn:Ho; [|discriminate]. destruct (next_entry x o) as [j|]; [|discriminate]. injection Hst as <- <-. case_bool_decide; [|apply HG; try reflexivity; try exact Logic.I; discriminate]. destruct c; cbn [after_prev]; [|destruct (_ && _)]; apply HG; try reflexivity; try exact Logic.I; discriminate.
      - (* IOcc *) destruct (c_occ s !! _) as [o|] eqn:Ho; [|discriminate]. injection Hst as <- <-. destruct o; apply HG; try reflexivity; try exact Logic.I; discriminate.
      - (* ILockB *) destruct (c_locks s !! _) as [[]|] eqn:Ho; [| |discriminate]; injection Hst as <- <-; [apply HA; try reflexivity; intros; exact Logic.I|apply HG; try reflexivity; try exact Logic.I; discriminate].
      - (* IOccB *) destruct (c_occ s !! _) as [o|] eqn:Ho; [|discriminate]. injection Hst as <- <-. destruct o; apply HG; try reflexivity; try exact Logic.I; discriminate.
      - (* IConB *) destruct Hk as [H1 H2]. destruct op as [v| |]; try contradiction. destruct (c_values s !! _) as [o|] eqn:Ho; [|discriminate]. injection Hst as <- <-. apply HVv; try reflexivity; try discriminate; try (intros; exact Logic.I); auto. right. exists v, rest. split; [exact Ep|]. reflexivity.
      - (* ICntB *) injection Hst as <- <-. apply HG; try reflexivity; try exact Logic.I; discriminate.
      - (* ISetB *) destruct Hk as [H1 H2]. rewrite H2 in Hst. injection Hst as <- <-. destruct op as [v| |]; try contradiction. cbn [own_value] in H1. apply (HO _ v); try reflexivity; try discriminate; auto. intros y u (r & E0 & H). rewrite Ep in E0. injection E0 as <- <-. rewrite Epc in H. symmetry. exact H.
      - (* IUnlB *) destruct (c_locks s !! _) as [o|] eqn:Ho; [|discriminate]. injection Hst as <- <-. destruct r as [p|]; [apply HF; try reflexivity; try exact Logic.I; [discriminate|destruct op; exact Logic.I]|apply HA; try reflexivity; intros; exact Logic.I].
      - (* ILockL *) destruct (c_locks s !! e) as [[]|] eqn:Ho; [| |discriminate]; injection Hst as <- <-; [apply HA; try reflexivity; intros; exact Logic.I|apply HG; try reflexivity; try exact Logic.I; discriminate].
      - (* IPop *) destruct (qstep (vctl E) i (c_ex s) q) as [[y q']|] eqn:Hq; [|discriminate]. repeat case_match; try discriminate; injection Hst as <- <-; apply HG; try reflexivity; try exact Logic.I; discriminate.
      - (* IConL *) destruct op as [v| |]; try contradiction. destruct (c_values s !! p) as [o|] eqn:Ho; [|discriminate]. injection Hst as <- <-. assert (Hpt : p ∈ hndt t) by (unfold hndt; rewrite Epc; left). destruct (g_hand kf hash keq bc E M0 s ls F P I i t p Hi Hpt) as [Hr Hoc]. apply HVv; try reflexivity; try discriminate; try (intros; exact Logic.I); auto. right. exists v, rest. split; [exact Ep|]. reflexivity.
      - (* IOffL *) destruct (c_off s !! p) as [o|] eqn:Ho; [|discriminate]. injection Hst as <- <-. apply HG; try reflexivity; try exact Logic.I; discriminate.
      - (* ICntL *) injection Hst as <- <-. apply HG; try reflexivity; try exact Logic.I; discriminate.
      - (* ISetL *) assert (Hpt : p ∈ hndt t) by (unfold hndt; rewrite Epc; left). destruct (g_hand kf hash keq bc E M0 s ls F P I i t p Hi Hpt) as [Hr Hoc]. rewrite Hoc in Hst. injection Hst as <- <-. destruct op as [v| |]; try contradiction. cbn [own_value] in Hk. apply (HO _ v); try reflexivity; try discriminate; auto. intros y u (r & E0 & H). rewrite Epc in H. symmetry. exact H.
      - (* ILinkL *) destruct (c_off s !! e) as [o|] eqn:Ho; [|discriminate]. injection Hst as <- <-. apply HG; try reflexivity; try exact Logic.I; discriminate.
      - (* IUnlL *) destruct (c_locks s !! _) as [o|] eqn:Ho; [|discriminate]. injection Hst as <- <-. destruct r as [p|]; [apply HF; try reflexivity; try exact Logic.I; [discriminate|destruct op; exact Logic.I]|apply HA; try reflexivity; intros; exact Logic.I].
      - (* XLockB *) destruct (c_locks s !! p) as [[]|] eqn:Ho; [| |discriminate]; injection Hst as <- <-; [apply HA; try reflexivity; intros; exact Logic.I|apply HG; try reflexivity; try exact Logic.I; discriminate].
      - (* XResetB *) destruct Hk as (H1 & -> & H3 & H4). rewrite H3 in Hst. injection Hst as <- <-. destruct op as [|k|]; try contradiction. apply (HX _ k); try reflexivity; try discriminate; try (intros; exact Logic.I); auto.
      - (* XCntB *) injection Hst as <- <-. apply HG; try reflexivity; try exact Logic.I; discriminate.
      - (* XDesB *) destruct Hk as (H1 & -> & H3). destruct (c_values s !! _) as [[v|]|] eqn:Ho; try discriminate. injection Hst as <- <-. apply HVv; try reflexivity; try discriminate; try (intros; exact Logic.I); auto; try (left; rewrite Ho; eauto).
      - (* XUnlB *) destruct (c_locks s !! p) as [o|] eqn:Ho; [|discriminate]. injection Hst as <- <-. destruct ok; [apply HF; try reflexivity; try exact Logic.I; [discriminate|destruct op; exact Logic.I]|apply HA; try reflexivity; intros; exact Logic.I].
      - (* XLock1 *) destruct (c_locks s !! p) as [[]|] eqn:Ho; [| |discriminate]; injection Hst as <- <-; [apply HA; try reflexivity; intros; exact Logic.I|apply HG; try reflexivity; try exact Logic.I; discriminate].
      - (* XLock2 *) destruct (c_locks s !! q) as [[]|] eqn:Ho; [| |discriminate]; injection Hst as <- <-; apply HG; try reflexivity; try exact Logic.I; discriminate.
      - (* XBack *) destruct (c_locks s !! p) as [o|] eqn:Ho; [|discriminate]. injection Hst as <- <-. apply HA; try reflexivity; intros; exact Logic.I.
      - (* XTest *) destruct (c_off s !! p) as [o|] eqn:Ho; [|discriminate]. injection Hst as <- <-. destruct (o =? 0); apply HG; try reflexivity; try exact Logic.I; discriminate.
      - destruct (c_off s !! p) as [o|] eqn:Ho; [|discriminate]. injection Hst as <- <-. apply HG; try reflexivity; try exact Logic.I; discriminate.
      - destruct (c_off s !! q) as [o'|] eqn:Ho; [|discriminate]. injection Hst as <- <-. apply HG; try reflexivity; try exact Logic.I; discriminate.
      - destruct (c_off s !! q) as [o'|] eqn:Ho; [|discriminate]. injection Hst as <- <-. apply HG; try reflexivity; try exact Logic.I; discriminate.
      - (* XReset *) destruct Hk as (H1 & H2 & H3 & H4). rewrite H3 in Hst. injection Hst as <- <-. destruct op as [|k|]; try contradiction. apply (HX _ k); try reflexivity; try discriminate; try (intros; exact Logic.I); auto.
      - (* XCnt *) injection Hst as <- <-. apply HG; try reflexivity; try exact Logic.I; discriminate.
      - (* XDes *) destruct (c_values s !! p) as [[v|]|] eqn:Ho; try discriminate. injection Hst as <- <-. assert (Hpt : p ∈ hndt t) by (unfold hndt; rewrite Epc; left). destruct (g_hand kf hash keq bc E M0 s ls F P I i t p Hi Hpt) as [Hr Hoc]. apply HVv; try reflexivity; try discriminate; try (intros; exact Logic.I); auto; try (left; rewrite Ho; eauto).
      - (* XPush *) destruct (qstep (vctl E) i (c_ex s) x) as [[y x']|] eqn:Hq; [|discriminate]. injection Hst as <- <-. destruct (q_prog x'); apply HG; try reflexivity; try exact Logic.I; discriminate.
      - (* XUnl1 *) destruct (c_locks s !! p) as [o|] eqn:Ho; [|discriminate]. injection Hst as <- <-. apply HG; try reflexivity; try exact Logic.I; try discriminate.
      - (* XUnl2 *) destruct (c_locks s !! q) as [o|] eqn:Ho; [|discriminate]. injection Hst as <- <-. destruct ok; [apply HF; try reflexivity; try exact Logic.I; [discriminate|destruct op; exact Logic.I]|apply HA; try reflexivity; intros; exact Logic.I].
    Qed.
    Lemma tkstep_at tr s' t' : kernel_step kf hash keq bc E tr i s t = Some (s', t') -> tgood s' t'.
    Proof using HP I Hi Ep.
      unfold kernel_step. destruct tr; [|apply tstep_at]. pose proof tstep_at as HU. pose proof t_go as HG. unfold estep. destruct (c_pc t) eqn:Epc; try (apply HU); rewrite Ep; destruct (c_values s !! p) as [[v|]|]; try discriminate; intros Hst; injection Hst as <- <-; apply HG; try reflexivity; try exact Logic.I; discriminate.
    Qed.
  End step.

  (** *** whole runs *)
  Notation hist := (list (nat * (cop K V * cret))).
  Definition exact_accounts (ls : list (cthread K V)) (h : hist) : Prop := (forall x, x ∈ h -> (x.1 < length ls)%nat) /\ forall i t, ls !! i = Some t -> calls_of i h = done t.
  Definition explains s0 c (h : hist) : Prop := effects kf keq (content_of s0) h (content_of c.1) /\ exact_accounts c.2 h.
  Definition stored_moment c (x : nat) (v : V) : Prop := c_values c.1 !! x = Some (Some v) /\ c_occ c.1 !! x = Some true.
  (** what a thread that is about to read the value of entry [x] knows about it *)
  Definition fresh (past : list config) c (i : nat) t (x : nat) : Prop :=
    c_occ c.1 !! x = Some true \/ (exists j u v, c.2 !! j = Some u /\ writes u x v) \/ (forall v, c_values c.1 !! x <> Some (Some v)) \/
    exists v c1, c1 ∈ past /\ in_call i (length (c_log t)) c1 /\ c_values c.1 !! x = Some (Some v) /\ stored_moment c1 x v.
  Definition justified (past : list config) (i m : nat) (x : cop K V * cret) : Prop :=
    match x with
    | (CFind k, RFound (Some p)) => exists c1, c1 ∈ past /\ in_call i m c1 /\ seen_at kf keq k p c1
    | (CInsert w, RNotInserted) => exists c1, c1 ∈ past /\ in_call i m c1 /\ (no_room E c1 \/ exists p, seen_at kf keq (kf w) p c1)
    | _ => True
    end.
  Record tinv (M0 : list V) s0 (past : list config) c : Prop := {
    t_ainv : exists F P, ainv M0 c.1 c.2 F P;
    t_hist : exists h, explains s0 c h /\ forall c1, c1 ∈ past -> exists h1, h1 `prefix_of` h /\ explains s0 c1 h1;
    t_fresh : forall i t x y, c.2 !! i = Some t -> c_pc t = FVal x y -> fresh past c i t y;
    t_log : forall i t m x, c.2 !! i = Some t -> c_log t !! m = Some x -> justified past i m x
  }.
  Lemma justified_mono past c i m x : justified past i m x -> justified (c :: past) i m x.
  Proof using.
    destruct x as [[w|k|k] [p| |b|[p|]]]; cbn [justified]; auto.
    - intros (c1 & H1 & H2). exists c1. split; [right; exact H1|exact H2].
    - intros (c1 & H1 & H2). exists c1. split; [right; exact H1|exact H2].
  Qed.
  Lemma effects_snoc M h M1 x M2 : effects kf keq M h M1 -> effect kf keq M1 x.2 M2 -> effects kf keq M (h ++ [x]) M2.
  Proof using.
    revert M. induction h as [|[j y] h IH]; intros M H1 H2; cbn [effects app].
    - destruct x as [j x]. exists M2. split; [|intros p; reflexivity]. cbn [effects] in H1. cbn [snd] in H2. destruct x as [[w|k|k] [p| |[]|]]; cbn [effect] in *; try contradiction.
      + destruct H2 as [H2 H3]. split; [rewrite <- H1; exact H2|]. intros q. rewrite H3. case_decide; [reflexivity|apply H1].
      + destruct H2 as (p & v & H2 & H3 & H4). exists p, v. split; [rewrite <- H1; exact H2|]. split; [exact H3|]. intros q. rewrite H4. case_decide; [reflexivity|apply H1].
    - destruct H1 as (M3 & H3 & H4). exists M3. split; [exact H3|]. apply IH; assumption.
  Qed.
  Lemma effects_same M h M1 M2 : effects kf keq M h M1 -> same M1 M2 -> effects kf keq M h M2.
  Proof using. revert M. induction h as [|[j y] h IH]; intros M H1 H2; cbn [effects]; [intros p; rewrite H2; apply H1|]. destruct H1 as (M3 & H3 & H4). exists M3. split; [exact H3|]. apply IH; assumption. Qed.
  Lemma calls_of_snoc i j (h : hist) x : calls_of i (h ++ [(j, x)]) = calls_of i h ++ (if decide (j = i) then [x] else []).
  Proof using. unfold calls_of. rewrite filter_app, fmap_app. f_equal. unfold filter. cbn. destruct (decide (j = i)); reflexivity. Qed.

  Lemma tinv_step tr M0 s0 past c c' : tinv M0 s0 past c -> Conc.cstep (kernel_step kf hash keq bc E tr) c c' -> tinv M0 s0 (c :: past) c'.
  Proof using HP.
    intros [(F & P & I) (h & (HE & HA1 & HA2) & Hpre) HFr HL] Hcs. assert (HR : Conc.reach (kernel_step kf hash keq bc E tr) c c') by (apply rtc_once; exact Hcs).
    destruct Hcs as [s ls i t s' t' Hi Hst]. cbn [fst snd] in *.
    assert (Hlt : (i < length ls)%nat) by (eapply lookup_lt_Some; exact Hi).
    destruct (c_prog t) as [|op rest] eqn:Ep.
    { exfalso. pose proof (PL a_thr I i t Hi) as T. unfold athr in T. rewrite Ep in T. unfold kernel_step in Hst. destruct tr; unfold estep, ustep in Hst; rewrite ?T, Ep in Hst; discriminate. }
    destruct (tkstep_at M0 s ls F P i t op rest I Hi Ep tr s' t' Hst) as (HC & Hcell & Hend & Hval).
    assert (Hother : forall j u, <[i:=t']> ls !! j = Some u -> (j = i /\ u = t') \/ (j <> i /\ ls !! j = Some u)).
    { intros j u Hj. apply list_lookup_insert_Some in Hj as [(-> & <- & _)|[H1 H2]]; [left; auto|right; auto]. }
    split; cbn [fst snd].
    - exact (ainv_reach kf hash keq bc E HP tr M0 _ _ _ _ F P I HR).
    - assert (Hnew : exists h', h `prefix_of` h' /\ explains s0 (s', <[i:=t']> ls) h').
      { destruct HC as [[HC1 HC2]|(x & HC1 & HC2)].
        - exists h. split; [reflexivity|]. split; [eapply effects_same; eassumption|]. cbn [snd]. split; [rewrite insert_length; exact HA1|].
          intros j u Hj. destruct (Hother j u Hj) as [[-> ->]|[_ Hj']]; [rewrite HC2; apply HA2; exact Hi|apply HA2; exact Hj'].
        - exists (h ++ [(i, x)]). split; [apply prefix_app_r; reflexivity|]. split; [eapply effects_snoc; [exact HE|exact HC1]|]. cbn [snd]. split.
          + rewrite insert_length. intros y Hy. apply elem_of_app in Hy as [Hy|Hy]; [exact (HA1 y Hy)|]. apply elem_of_list_singleton in Hy as ->. exact Hlt.
          + intros j u Hj. rewrite calls_of_snoc. destruct (Hother j u Hj) as [[-> ->]|[Hji Hj']]; [rewrite decide_True by reflexivity; rewrite HC2, (HA2 i t Hi); reflexivity|]. rewrite decide_False by congruence. rewrite app_nil_r. apply HA2. exact Hj'. }
      destruct Hnew as (h' & Hp & He). exists h'. split; [exact He|]. intros c1 Hc1. apply elem_of_cons in Hc1 as [-> |Hc1].
      + exists h. split; [exact Hp|]. split; [exact HE|split; assumption].
      + destruct (Hpre c1 Hc1) as (h1 & H1 & H2). exists h1. split; [etrans; eassumption|exact H2].
    - intros j u x y Hj Epc. destruct (Hother j u Hj) as [[-> ->]|[Hji Hj']]; [left; eapply Hval; exact Epc|].
      pose proof (HFr j u x y Hj' Epc) as Hf. unfold fresh in *. cbn [fst snd] in *.
      assert (Hin : in_call j (length (c_log u)) (s, ls)) by (exists u; cbn [snd]; split; [exact Hj'|]; split; [reflexivity|]; rewrite Epc; discriminate).
      destruct (Hcell y) as [(H1 & H2 & H3)|[H1|[(H1 & H2)|[(v & H1)|H1]]]].
      + rewrite H1, H2. destruct Hf as [Hf|[(j' & u' & v & Hj1 & Hw)|[Hf|(v & c1 & F1 & F2 & F3 & F4)]]].
        * left. exact Hf.
        * right. left. destruct (decide (j' = i)) as [-> |Hne].
          -- rewrite Hi in Hj1. injection Hj1 as <-. exists i, t', v. split; [apply list_lookup_insert; exact Hlt|apply H3; exact Hw].
          -- exists j', u', v. split; [rewrite list_lookup_insert_ne by congruence; exact Hj1|exact Hw].
        * right. right. left. exact Hf.
        * right. right. right. exists v, c1. split; [right; exact F1|auto].
      + left. exact H1.
      + destruct (PL a_val I y H1) as [v Hv]. right. right. right. exists v, (s, ls). split; [left|]. split; [exact Hin|]. split; [rewrite H2; exact Hv|]. split; assumption.
      + right. left. exists i, t', v. split; [apply list_lookup_insert; exact Hlt|exact H1].
      + right. right. left. intros v. rewrite H1. discriminate.
    - intros j u m x Hj Hm. destruct (Hother j u Hj) as [[-> ->]|[Hji Hj']]; [|apply justified_mono; eapply HL; eassumption].
      destruct Hend as [Hend|(op' & r & Hu & Hend & Hr)]; rewrite Hend in Hm; [apply justified_mono; eapply HL; eassumption|].
      apply lookup_app_Some in Hm as [Hm|[Hm1 Hm2]]; [apply justified_mono; eapply HL; eassumption|].
      apply list_lookup_singleton_Some in Hm2 as [Hm2 <-]. assert (m = length (c_log t)) as -> by lia. clear Hm1 Hm2. cbn [fst] in Hr.
      assert (Hin : in_call i (length (c_log t)) (s, ls)) by (exists t; cbn [snd]; auto).
      assert (Hseen : forall y z v k, c_pc t = FVal y z -> c_values s !! z = Some (Some v) -> keq (kf v) k = true -> exists c1, c1 ∈ (s, ls) :: past /\ in_call i (length (c_log t)) c1 /\ seen_at kf keq k z c1).
      { intros y z v k Epc Hv Hk. destruct (HFr i t y z Hi Epc) as [Hf|[(j' & u' & w & Hj1 & (r' & E1 & Hw))|[Hf|(w & c1 & F1 & F2 & F3 & F4 & F5)]]]; cbn [fst snd] in *.
        - exists (s, ls). split; [left|]. split; [exact Hin|]. exists v. cbn [fst]. auto.
        - exists (s, ls). split; [left|]. split; [exact Hin|]. exists v. cbn [fst snd]. split; [exact Hv|]. split; [exact Hk|]. right. exists j', u', r'. split; [exact Hj1|].
          pose proof (PL a_thr I j' u' Hj1) as T. unfold athr in T. rewrite E1 in T. destruct (c_pc u') eqn:Epu; try contradiction; cbn [akn own_value op_key] in T; subst z; try apply proj1 in T; rewrite T in Hv; injection Hv as ->; (split; [exact E1|discriminate]).
        - exfalso. exact (Hf v Hv).
        - rewrite Hv in F3. injection F3 as <-. exists c1. split; [right; exact F1|]. split; [exact F2|]. exists v. auto. }
      destruct op' as [w|k|k], r as [p| |b|[p|]]; cbn [justified]; auto.
      + destruct Hr as [Hr|(p & y & v & E1 & E2 & E3)]; [exists (s, ls); split; [left|]; auto|]. destruct (Hseen y p v _ E1 E2 E3) as (c1 & C1 & C2 & C3). exists c1. split; [exact C1|]. split; [exact C2|]. right. exists p. exact C3.
      + destruct Hr as (y & v & E1 & E2 & E3). exact (Hseen y p v _ E1 E2 E3).
  Qed.
  Lemma tinv_start s progs F : ainv (UOneDefs.stored bc E s) s (c_start progs) F [] -> tinv (UOneDefs.stored bc E s) s [] (s, c_start progs).
  Proof using.
    intros I. assert (Hidle : forall i t, (c_start progs : list (cthread K V)) !! i = Some t -> c_pc t = UIdle /\ c_log t = []).
    { intros i t Ht. unfold c_start in Ht. rewrite list_lookup_fmap in Ht. destruct (progs !! i); [|discriminate]. injection Ht as <-. auto. }
    split; cbn [fst snd].
    - exists F, []. exact I.
    - exists []. split; [|intros c1 H; inversion H]. split; [intros p; reflexivity|]. cbn [snd]. split; [intros x H; inversion H|]. intros i t Ht. destruct (Hidle i t Ht) as [E1 E2]. unfold done. rewrite E1, E2. destruct (c_prog t); reflexivity.
    - intros i t x y Ht Epc. destruct (Hidle i t Ht) as [E1 _]. congruence.
    - intros i t m x Ht Hm. destruct (Hidle i t Ht) as [_ E2]. rewrite E2 in Hm. discriminate.
  Qed.
  Lemma tinv_visited tr s progs F past c : ainv (UOneDefs.stored bc E s) s (c_start progs) F [] -> visited (kernel_step kf hash keq bc E tr) (s, c_start progs) past c -> tinv (UOneDefs.stored bc E s) s past c.
  Proof using HP. intros I HV. induction HV as [|past c c' HV IH Hcs]; [eapply tinv_start; exact I|]. eapply tinv_step; eassumption. Qed.
  Lemma visited_ainv tr s progs F past c : ainv (UOneDefs.stored bc E s) s (c_start progs) F [] -> visited (kernel_step kf hash keq bc E tr) (s, c_start progs) past c ->
    forall c1, c1 ∈ c :: past -> exists M F P, ainv M c1.1 c1.2 F P.
  Proof using HP.
    intros I HV. induction HV as [|past c c' HV IH Hcs]; intros c1 Hc1.
    - apply elem_of_list_singleton in Hc1 as ->. eexists _, _, _. exact I.
    - apply elem_of_cons in Hc1 as [-> |Hc1]; [|apply IH; exact Hc1]. destruct (t_ainv _ _ _ _ (tinv_visited tr s progs F _ _ I (visit_step _ _ _ _ _ HV Hcs))) as (F' & P' & I'). eexists _, _, _. exact I'.
  Qed.
  Lemma exact_accounts_weaken ls h : exact_accounts ls h -> (forall i t, ls !! i = Some t -> c_prog t = [] -> c_pc t = UIdle) -> accounts_successes ls h.
  Proof using.
    intros [H1 H2] Hid. split; [exact H1|]. intros i t Ht. rewrite (H2 i t Ht). unfold done. destruct (c_prog t) as [|op r] eqn:Ep; [left; apply app_nil_r|].
    destruct (pend op (c_pc t)) as [|x l] eqn:El; [left; apply app_nil_r|]. right.
    assert (Hx : exists r', x = (op, r') /\ l = [] /\ c_pc t <> UIdle) by (destruct (c_pc t); cbn [pend] in El; try discriminate; try (match type of El with context[match ?z with _ => _ end] => destruct z end); try discriminate; injection El as <- <-; eexists; (split; [reflexivity|split; [reflexivity|discriminate]])).
    destruct Hx as (r' & -> & -> & Hpc). exists op, r, r'. auto.
  Qed.
End truth.
