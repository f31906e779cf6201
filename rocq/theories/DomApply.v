(** What one instruction of a changeset does to a tree. *)
From Coq Require Import Lia.
From Verif Require Import Base HMap Num DomModel DomSpec DomProofs DomProofs2 DomProofs3 DomProofs4 DomKeyed.

(* ------------------------------------------------------------------ *)
(** ** Specification *)

(** [e'] is [e] with exactly one node changed, as [R] says. *)
Inductive edit_at (R : element -> element -> Prop) : element -> element -> Prop :=
| ea_here x y : R x y -> edit_at R x y
| ea_below i n a l l1 c c' l2 t k : edit_at R c c' -> edit_at R (Element i n a l (l1 ++ c :: l2) t k) (Element i n a l (l1 ++ c' :: l2) t k).
(** The text [s] is the number [i] of a node ([usize] with maximum [max]). *)
Definition number (max : N) (s : str) (i : N) : Prop := parse_uint max s = Some i.
(** How an instruction addressed to node [i] changes a node. *)
Inductive effect (max i : N) : instr -> element -> element -> Prop :=
| ef_insert_child s j n a l cs t k : number max s j ->
    effect max i (InsertChild s) (Element i n a l cs t k) (Element i n a l (cs ++ [Element j [] [] [] [] None None]) t k)
| ef_insert_after s j n a l l1 c l2 t k : number max s j -> el_id c = j ->
    effect max i (InsertAfter s) (Element i n a l (l1 ++ c :: l2) t k) (Element i n a l (l1 ++ c :: Element j [] [] [] [] None None :: l2) t k)
| ef_insert_before s j n a l l1 c l2 t k : number max s j -> el_id c = j ->
    effect max i (InsertBefore s) (Element i n a l (l1 ++ c :: l2) t k) (Element i n a l (l1 ++ Element j [] [] [] [] None None :: c :: l2) t k)
| ef_set_attribute key v n a l cs t k : effect max i (SetAttribute key v) (Element i n a l cs t k) (Element i n (insert key v a) l cs t k)
| ef_remove_attribute key n a l cs t k : effect max i (RemoveAttribute key) (Element i n a l cs t k) (Element i n (remove key a) l cs t k)
| ef_set_id s j n a l cs t k : number max s j -> effect max i (SetId s) (Element i n a l cs t k) (Element j n a l cs t k)
| ef_set_text v n a l cs t k : effect max i (SetText v) (Element i n a l cs t k) (Element i n a l cs (Some v) k)
| ef_remove_text n a l cs t k : effect max i RemoveText (Element i n a l cs t k) (Element i n a l cs None k)
| ef_set_name m n a l cs t k : effect max i (SetTagName m) (Element i n a l cs t k) (Element i m a l cs t k)
| ef_create m s p n a l cs t k : number max s p ->
    effect max i (CreateTag m (Some s)) (Element p n a l cs t k) (Element p n a l (cs ++ [Element i m [] [] [] None None]) t k)
| ef_remove_listeners n a l cs t k : effect max i RemoveListeners (Element i n a l cs t k) (Element i n a [] cs t k)
| ef_attach name ev n a l cs t k : effect max i (AttachListener name ev) (Element i n a l cs t k) (Element i n a (l ++ [Listener name ev]) cs t k)
| ef_delete p n a l l1 c l2 t k : el_id c = i ->
    effect max i DeleteEl (Element p n a l (l1 ++ c :: l2) t k) (Element p n a l (l1 ++ l2) t k).

(* ------------------------------------------------------------------ *)
(** ** Proof *)

Lemma edit_impl (R R' : element -> element -> Prop) : (forall x y, R x y -> R' x y) -> forall e e', edit_at R e e' -> edit_at R' e e'.
Proof. intros H e e' E. induction E; [apply ea_here; auto|now apply ea_below]. Qed.
Lemma edit_id (R : element -> element -> Prop) i : (forall x y, R x y -> In i (ids x)) -> forall e e', edit_at R e e' -> In i (ids e).
Proof.
  intros H e e' E. induction E as [x y HR|r n a l l1 c c' l2 t k E IH]; [eauto|]. cbn [ids]. right. apply in_flat_map. exists c. split; [apply in_elt|exact IH].
Qed.
Lemma nodup_mid r n a l l1 c l2 t k : NoDup (ids (Element r n a l (l1 ++ c :: l2) t k)) ->
  NoDup (ids c) /\ forall i, In i (ids c) -> i <> r /\ ~ In i (ids_of l1) /\ ~ In i (ids_of l2).
Proof.
  cbn [ids]. intros H. inversion H as [|? ? H1 H2]; subst. fold (ids_of (l1 ++ c :: l2)) in *. rewrite ids_of_app, ids_of_cons in *.
  apply nodup_app_iff in H2 as (N1 & N2 & D1). apply nodup_app_iff in N2 as (N2 & N3 & D2). split; [exact N2|]. intros i Hi. repeat split.
  - intros ->. apply H1. rewrite !in_app_iff. auto.
  - intros Hj. apply (D1 i Hj). apply in_or_app. now left.
  - intros Hj. exact (D2 i Hi Hj).
Qed.
Lemma mutate_at i f e : NoDup (ids e) -> forall e', mutate i f e = Some e' <-> edit_at (fun x y => el_id x = i /\ f x = Some y) e e'.
Proof.
  intros Hn e'. split.
  - clear Hn. revert e'. unfold mutate. induction e as [r n a l cs t k IH] using element_ind2. intros e'. rewrite find_mutate_eq. destruct (N.eqb_spec i r) as [->|Hr].
    + intros H. apply ea_here. auto.
    + assert (forall cs', find_list i f cs = Some (Some cs') -> exists l1 c c' l2, cs = l1 ++ c :: l2 /\ cs' = l1 ++ c' :: l2 /\ find_mutate i f c = Some (Some c') /\ In c cs) as G.
      { clear. induction cs as [|c cs IHc]; intros cs'; cbn [find_list]; [discriminate|]. destruct (find_mutate i f c) as [[c'|]|] eqn:Ec; [|discriminate|].
        - intros [= <-]. exists [], c, c', cs. auto using in_eq.
        - destruct (find_list i f cs) as [[l|]|] eqn:El; try discriminate. intros [= <-]. destruct (IHc l eq_refl) as (l1 & x & x' & l2 & -> & -> & E & Hx).
          exists (c :: l1), x, x', l2. repeat split; auto. now right. }
      destruct (find_list i f cs) as [[cs'|]|]; try discriminate. intros [= <-]. destruct (G cs' eq_refl) as (l1 & c & c' & l2 & -> & -> & E & Hc).
      rewrite Forall_forall in IH. apply ea_below. apply (IH c Hc). now rewrite E.
  - intros H. induction H as [x y [H1 H2]|r n a l l1 c c' l2 t k E IH].
    + rewrite mutate_root; assumption.
    + assert (In i (ids c)) as Hi by (apply (edit_id _ i (fun x y H => eq_ind _ (fun z => In z (ids x)) (in_ids_root x) _ (proj1 H)) _ _ E)).
      apply nodup_mid in Hn as [Hc Hd]. destruct (Hd i Hi) as (D1 & D2 & _). apply mutate_lift; auto.
Qed.
Lemma with_child_id p l n : position p l = Some n -> exists l1 c l2, l = l1 ++ c :: l2 /\ length l1 = n /\ p c = true.
Proof.
  revert n. induction l as [|c l IH]; intros n; cbn [position]; [discriminate|]. destruct (p c) eqn:E.
  - intros [= <-]. exists [], c, l. auto.
  - destruct (position p l) as [m|]; [|discriminate]. intros [= <-]. destruct (IH m eq_refl) as (l1 & x & l2 & -> & <- & Hx). exists (c :: l1), x, l2. auto.
Qed.
Lemma position_at j l1 c l2 : ~ In j (map el_id l1) -> el_id c = j -> position (fun x => N.eqb (el_id x) j) (l1 ++ c :: l2) = Some (length l1).
Proof.
  intros H Hc. induction l1 as [|x l1 IH]; cbn [app position length].
  - rewrite Hc, N.eqb_refl. reflexivity.
  - cbn [map In] in H. destruct (N.eqb_spec (el_id x) j); [exfalso; auto|]. rewrite IH by tauto. reflexivity.
Qed.
Lemma root_ids_of l i : In i (map el_id l) -> In i (ids_of l).
Proof. intros H. apply in_map_iff in H as (c & <- & H). unfold ids_of. apply in_flat_map. exists c. split; [exact H|apply in_ids_root]. Qed.
Lemma insert_at_mid n (l1 l2 : list element) x c : length l1 = n ->
  insert_at (S n) x (l1 ++ c :: l2) = l1 ++ c :: x :: l2 /\ insert_at n x (l1 ++ c :: l2) = l1 ++ x :: c :: l2 /\ remove_at n (l1 ++ c :: l2) = l1 ++ l2.
Proof.
  intros <-. unfold insert_at, remove_at. induction l1 as [|y l1 (H1 & H2 & H3)]; [repeat split|]. cbn [length firstn skipn app] in *.
  repeat split; f_equal; assumption.
Qed.

Lemma parent_of e : NoDup (ids e) -> forall R : element -> element -> Prop,
  (forall i, (forall x y, R x y -> exists l1 c l2, el_children x = l1 ++ c :: l2 /\ el_id c = i) ->
   forall e', edit_at R e e' -> exists p, find_parent_id e i = Some p /\ edit_at (fun x y => el_id x = p /\ R x y) e e').
Proof.
  intros Hn R i HR e' E. induction E as [x y H|r n a l l1 c c' l2 t k E IH].
  - destruct (HR x y H) as (l1 & c & l2 & Ec & Hc). destruct x as [r n a l cs t k]. cbn [el_children] in Ec. subst cs. exists r. split; [|apply ea_here; auto].
    apply nodup_mid in Hn as [Hn1 Hd]. rewrite find_parent_eq, parent_list_app.
    + cbn [parent_list]. now rewrite Hc, N.eqb_refl.
    + apply Hd. rewrite <- Hc. apply in_ids_root.
  - pose proof (nodup_mid _ _ _ _ _ _ _ _ _ Hn) as [Hnc Hd]. destruct (IH Hnc) as (p & Hp & Ep). exists p. split; [|now apply ea_below].
    pose proof (parent_in _ _ _ Hp) as [_ Hi]. rewrite find_parent_eq, parent_list_app by (now apply Hd).
    cbn [parent_list]. destruct (N.eqb_spec (el_id c) i) as [Hc|Hc]; [|now rewrite Hp].
    exfalso. destruct c as [ci cn ca cl cc ct ck]. cbn [el_id] in Hc. subst ci. cbn [ids] in Hnc. inversion Hnc as [|? ? N1 N2]. apply N1. clear -E HR.
    inversion E as [? ? HH|? ? ? ? l3 c0 c0' l4 ? ? E']; subst.
    + destruct (HR _ _ HH) as (l3 & c0 & l4 & Ec & Hc). cbn [el_children] in Ec. subst cc. rewrite flat_map_app. apply in_or_app. right. cbn [flat_map]. apply in_or_app. left.
      rewrite <- Hc. apply in_ids_root.
    + rewrite flat_map_app. apply in_or_app. right. cbn [flat_map]. apply in_or_app. left. apply (edit_id R i) with (e' := c0'); [|exact E'].
      intros x y HH. destruct (HR _ _ HH) as (l5 & c5 & l6 & Ec & Hc). apply in_ids_kids. rewrite Ec, ids_of_app, ids_of_cons, !in_app_iff. right. left. rewrite <- Hc. apply in_ids_root.
Qed.

Lemma edit_iff (R R' : element -> element -> Prop) : (forall x y, R x y <-> R' x y) -> forall e e', edit_at R e e' <-> edit_at R' e e'.
Proof. intros H e e'. split; apply edit_impl; intros; now apply H. Qed.
(** On a tree, a node's own ids are distinct too. *)
Lemma edit_sub (R R' : element -> element -> Prop) : (forall x y, NoDup (ids x) -> R x y -> R' x y) -> forall e e', NoDup (ids e) -> edit_at R e e' -> edit_at R' e e'.
Proof.
  intros H e e' Hn E. induction E as [x y HR|r n a l l1 c c' l2 t k E IH]; [apply ea_here; auto|]. apply ea_below. apply IH. now apply nodup_mid in Hn as [Hn _].
Qed.
Lemma edit_sub_iff (R R' : element -> element -> Prop) : (forall x y, NoDup (ids x) -> (R x y <-> R' x y)) -> forall e e', NoDup (ids e) -> (edit_at R e e' <-> edit_at R' e e').
Proof. intros H e e' Hn. split; apply edit_sub; auto; intros; now apply H. Qed.
Lemma edit_none (R : element -> element -> Prop) e e' : (forall x y, ~ R x y) -> ~ edit_at R e e'.
Proof. intros H E. induction E; eauto. eapply H; eauto. Qed.

Lemma apply_op_exactly max o e e' : NoDup (ids e) ->
  (apply_op max o e = Some e' <-> exists i, number max (op_id o) i /\ edit_at (effect max i (op_instr o)) e e').
Proof.
  intros Hn. unfold apply_op, number. destruct (parse_uint max (op_id o)) as [i|] eqn:Ei; [|split; [discriminate|intros (i & H & _); discriminate]].
  assert (forall P : N -> Prop, (exists i0, Some i = Some i0 /\ P i0) <-> P i) as Ex by (intros P; split; [intros (j & [= <-] & H); exact H|eauto]).
  rewrite Ex. clear Ex.
  assert (forall F (ins : instr), (forall x y, NoDup (ids x) -> (el_id x = i /\ F x = Some y <-> effect max i ins x y)) ->
    (mutate i F e = Some e' <-> edit_at (effect max i ins) e e')) as G.
  { intros F ins H. rewrite (mutate_at i F e Hn). now apply edit_sub_iff. }
  destruct (op_instr o) as [s|s|s|key v|key|s|v|m|m [s|]| | |nm ev|el h|].
  - destruct (parse_uint max s) as [j|] eqn:Ej.
    + apply G. intros [r n a l cs t k] y _. cbn [el_id el_children with_children]. split; [intros [-> [= <-]]; now constructor|].
      intros H. inversion H as [? j' ? ? ? ? ? ? Hj| | | | | | | | | | | | ]; subst. unfold number in Hj. split; [reflexivity|]. unfold blank. congruence.
    + split; [discriminate|]. intros H. exfalso. revert H. apply edit_none. intros x y H. inversion H as [? j' ? ? ? ? ? ? Hj| | | | | | | | | | | | ]. unfold number in Hj. congruence.
  - apply G. intros [r n a l cs t k] y Nx. cbn [el_id el_children with_children]. split.
    + intros [-> H]. destruct cs as [|c0 cs0] eqn:Ecs; [discriminate|]. rewrite <- Ecs in *. clear c0 cs0 Ecs. destruct (parse_uint max s) as [j|] eqn:Ej; [|discriminate].
      destruct (position _ cs) as [p|] eqn:Ep; [|discriminate]. injection H as <-. apply with_child_id in Ep as (l1 & c & l2 & -> & Hl & Hc). apply N.eqb_eq in Hc.
      destruct (insert_at_mid p l1 l2 (blank j []) c Hl) as (-> & _ & _). now constructor.
    + intros H. inversion H as [|? j ? ? ? l1 c l2 ? ? Hj Hc| | | | | | | | | | | ]; subst. split; [reflexivity|]. unfold number in Hj. rewrite Hj.
      apply nodup_mid in Nx as [_ Nx]. destruct (l1 ++ c :: l2) eqn:El; [now destruct l1|]. rewrite <- El.
      rewrite position_at; [|intros Hc; apply root_ids_of in Hc; exact (proj1 (proj2 (Nx _ (in_ids_root c))) Hc)|reflexivity]. destruct (insert_at_mid _ l1 l2 (blank (el_id c) []) c eq_refl) as (-> & _ & _). reflexivity.
  - apply G. intros [r n a l cs t k] y Nx. cbn [el_id el_children with_children]. split.
    + intros [-> H]. destruct cs as [|c0 cs0] eqn:Ecs; [discriminate|]. rewrite <- Ecs in *. clear c0 cs0 Ecs. destruct (parse_uint max s) as [j|] eqn:Ej; [|discriminate].
      destruct (position _ cs) as [p|] eqn:Ep; [|discriminate]. injection H as <-. apply with_child_id in Ep as (l1 & c & l2 & -> & Hl & Hc). apply N.eqb_eq in Hc.
      destruct (insert_at_mid p l1 l2 (blank j []) c Hl) as (_ & -> & _). now constructor.
    + intros H. inversion H as [| |? j ? ? ? l1 c l2 ? ? Hj Hc| | | | | | | | | | ]; subst. split; [reflexivity|]. unfold number in Hj. rewrite Hj.
      apply nodup_mid in Nx as [_ Nx]. destruct (l1 ++ c :: l2) eqn:El; [now destruct l1|]. rewrite <- El.
      rewrite position_at; [|intros Hc; apply root_ids_of in Hc; exact (proj1 (proj2 (Nx _ (in_ids_root c))) Hc)|reflexivity]. destruct (insert_at_mid _ l1 l2 (blank (el_id c) []) c eq_refl) as (_ & -> & _). reflexivity.
  - apply G. intros [r n a l cs t k] y _. cbn [el_id el_attrs with_attrs]. split; [intros [-> [= <-]]; now constructor|]. intros H. inversion H; subst. auto.
  - apply G. intros [r n a l cs t k] y _. cbn [el_id el_attrs with_attrs]. split; [intros [-> [= <-]]; now constructor|]. intros H. inversion H; subst. auto.
  - destruct (parse_uint max s) as [j|] eqn:Ej.
    + apply G. intros [r n a l cs t k] y _. cbn [el_id with_id]. split; [intros [-> [= <-]]; now constructor|].
      intros H. inversion H as [| | | | |? j' ? ? ? ? ? ? Hj| | | | | | | ]; subst. unfold number in Hj. split; [reflexivity|]. congruence.
    + split; [discriminate|]. intros H. exfalso. revert H. apply edit_none. intros x y H. inversion H as [| | | | |? j' ? ? ? ? ? ? Hj| | | | | | | ]. unfold number in Hj. congruence.
  - apply G. intros [r n a l cs t k] y _. cbn [el_id with_text]. split; [intros [-> [= <-]]; now constructor|]. intros H. inversion H; subst. auto.
  - apply G. intros [r n a l cs t k] y _. cbn [el_id with_name]. split; [intros [-> [= <-]]; now constructor|]. intros H. inversion H; subst. auto.
  - destruct (parse_uint max s) as [j|] eqn:Ej.
    + rewrite (mutate_at j _ e Hn). apply edit_iff. intros [r n a l cs t k] y. cbn [el_id el_children with_children]. split; [intros [-> [= <-]]; now constructor|].
      intros H. inversion H as [| | | | | | | | |? ? ? ? ? ? ? ? ? Hj| | | ]; subst. unfold number in Hj. split; [congruence|reflexivity].
    + split; [discriminate|]. intros H. exfalso. revert H. apply edit_none. intros x y H. inversion H as [| | | | | | | | |? ? ? ? ? ? ? ? ? Hj| | | ]. unfold number in Hj. congruence.
  - split; [discriminate|]. intros H. exfalso. revert H. apply edit_none. intros x y H. inversion H.
  - apply G. intros [r n a l cs t k] y _. cbn [el_id with_text]. split; [intros [-> [= <-]]; now constructor|]. intros H. inversion H; subst. auto.
  - apply G. intros [r n a l cs t k] y _. cbn [el_id with_listeners]. split; [intros [-> [= <-]]; now constructor|]. intros H. inversion H; subst. auto.
  - apply G. intros [r n a l cs t k] y _. cbn [el_id el_listeners with_listeners]. split; [intros [-> [= <-]]; now constructor|]. intros H. inversion H; subst. auto.
  - split; [discriminate|]. intros H. exfalso. revert H. apply edit_none. intros x y H. inversion H.
  - assert (forall x y p, NoDup (ids x) -> (el_id x = p /\ match position (fun c => N.eqb (el_id c) i) (el_children x) with
               | None => None | Some q => Some (with_children (remove_at q (el_children x)) x) end = Some y <-> el_id x = p /\ effect max i DeleteEl x y)) as D.
    { intros [r n a l cs t k] y p Nx. cbn [el_id el_children with_children]. split.
      - intros [-> H]. split; [reflexivity|]. destruct (position _ cs) as [q|] eqn:Ep; [|discriminate]. injection H as <-.
        apply with_child_id in Ep as (l1 & c & l2 & -> & Hl & Hc). apply N.eqb_eq in Hc. destruct (insert_at_mid q l1 l2 (blank 0 []) c Hl) as (_ & _ & ->). now constructor.
      - intros [-> H]. split; [reflexivity|]. inversion H as [| | | | | | | | | | | |? ? ? ? l1 c l2 ? ? Hc]; subst.
        apply nodup_mid in Nx as [_ Nx]. rewrite position_at; [|intros Hc; apply root_ids_of in Hc; exact (proj1 (proj2 (Nx _ (in_ids_root c))) Hc)|reflexivity].
        destruct (insert_at_mid _ l1 l2 (blank 0 []) c eq_refl) as (_ & _ & ->). reflexivity. }
    split.
    + destruct (find_parent_id e i) as [p|] eqn:Ep; [|discriminate]. intros H. apply (mutate_at p _ e Hn) in H. revert H. apply edit_sub; [|exact Hn]. intros x y Nx H.
      exact (proj2 (proj1 (D x y p Nx) H)).
    + intros H. destruct (parent_of e Hn (effect max i DeleteEl) i) with (e' := e') as (p & -> & Ep); [|exact H|].
      { intros x y Hx. inversion Hx as [| | | | | | | | | | | |? ? ? ? l1 c l2 ? ? Hc]; subst. exists l1, c, l2. auto. }
      apply (mutate_at p _ e Hn). revert Ep. apply edit_sub; [|exact Hn]. intros x y Nx Hx. now apply D.
Qed.
