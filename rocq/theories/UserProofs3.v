(** The elements on the way of an event are the elements of the page around its target. *)
From Verif Require Import Base HMap Num Json DomModel DomSpec DomProofs ClientModel ClientSpec UserModel UserProofs UserSpec UserProofs2.
From Coq Require Import Lia.

Definition is_elem (n : vnode) : Prop := match n with VElem _ _ _ _ _ => True | VText _ => False end.
Lemma node_at_some p : forall ns n, node_at p ns = Some n -> is_place p ns /\ hd_error (on_the_way p ns) = Some n.
Proof.
  induction p as [|j p IH]; intros ns n H; [discriminate|]. destruct p as [|k p].
  - cbn [node_at] in H. split; [apply is_place_cons; exists n; split; [exact H|apply is_place_nil]|]. rewrite way_cons, H. reflexivity.
  - cbn [node_at] in H. destruct (nth_error ns j) as [[s|t a ty l kids]|] eqn:E; try discriminate. destruct (IH _ _ H) as [H1 H2].
    split; [apply is_place_cons; eexists; split; [exact E|exact H1]|]. rewrite way_cons, E. cbn [v_kids]. destruct (on_the_way (k :: p) kids); [discriminate|exact H2].
Qed.
Lemma displays_kid n dom j m : displays (erase n) dom -> nth_error (v_kids n) j = Some m -> is_elem m -> exists c, In c (el_children dom) /\ displays (erase m) c.
Proof.
  intros D E Hm. inversion D as [i nm a l cs t k mm kids H1 H2 F Hn He]; subst dom. destruct n as [s|tag at_ ty ls vk]; [discriminate|]. cbn [erase] in Hn. injection Hn as _ _ _ Hk. cbn [v_kids] in E.
  assert (In (erase m) (map erase vk)) as Hin by (apply in_map; eapply nth_error_In; eauto). rewrite <- Hk in Hin. apply in_app_or in Hin as [Hin|Hin].
  - exfalso. unfold text_nodes in Hin. destruct (text_of t); [destruct Hin|]. destruct Hin as [Hin|[]]. destruct m; [destruct Hm|discriminate].
  - cbn [el_children]. clear -F Hin. induction F as [|x c kids cs Hx F IH]; [destruct Hin|]. destruct Hin as [<-|Hin]; [exists c; split; [now left|exact Hx]|].
    destruct (IH Hin) as (c' & ? & ?). exists c'. split; [now right|assumption].
Qed.
Lemma way_line q : forall n dom, displays (erase n) dom -> is_place q (v_kids n) -> (forall x, hd_error (on_the_way q (v_kids n) ++ [n]) = Some x -> is_elem x) ->
  exists es, line dom es /\ Forall2 (fun v e => displays (erase v) e) (on_the_way q (v_kids n) ++ [n]) es.
Proof.
  induction q as [|j q IH]; intros n dom D Hp Hh.
  - exists [dom]. split; [constructor|]. cbn. constructor; [exact D|constructor].
  - apply is_place_cons in Hp as (m & Em & Hp). rewrite way_cons, Em in *.
    assert (is_elem m) as Hm. { destruct m as [s|]; [|exact Logic.I]. destruct q as [|k q]; [apply (Hh (VText s)); reflexivity|]. apply is_place_cons in Hp as (x & Ex & _). destruct k; discriminate. }
    destruct (displays_kid n dom j m D Em Hm) as (c & Hc & Dc).
    destruct (IH m c Dc Hp) as (es & Hl & F).
    { intros x Hx. apply Hh. destruct (on_the_way q (v_kids m) ++ [m]) as [|y ys] eqn:Ey; [destruct (on_the_way q (v_kids m)); discriminate|]. exact Hx. }
    exists (es ++ [dom]). split; [now apply (LineIn dom c es)|]. apply Forall2_app; [exact F|constructor; [exact D|constructor]].
Qed.
Lemma page_line n dom p x : displays (erase n) dom -> node_at p [n] = Some x -> is_elem x ->
  exists es, line dom es /\ Forall2 (fun v e => displays (erase v) e) (on_the_way p [n]) es.
Proof.
  intros D H Hx. destruct (node_at_some _ _ _ H) as [Hp Hh]. destruct p as [|j q]; [discriminate|]. apply is_place_cons in Hp as (m & Em & Hp).
  destruct j as [|j]; [|destruct j; discriminate]. injection Em as <-. rewrite way_cons in *. cbn [nth_error] in *. apply way_line; [exact D|exact Hp|]. intros y Hy. congruence.
Qed.
Lemma line_parents dom es : line dom es -> Forall (fun e => In (el_id e) (parents dom)) (tl es).
Proof.
  induction 1 as [e|e c es Hc Hl IH]; [constructor|]. assert (exists y ys, es = y :: ys) as (y & ys & ->) by (destruct Hl as [|? ? es']; [eauto|destruct es'; cbn [app]; eauto]).
  cbn [app tl] in *. apply Forall_app. split.
  - eapply Forall_impl; [|exact IH]. intros z Hz. destruct e as [i n a l cs t k]. cbn [parents el_children] in *. apply in_or_app. right. apply in_flat_map. eauto.
  - constructor; [|constructor]. destruct e as [i n a l cs t k]. cbn [parents el_id el_children] in *. destruct cs; [destruct Hc|]. now left.
Qed.
Lemma displays_id n e : displays (erase n) e -> v_id n = Some (dec (el_id e)).
Proof. destruct n as [s|t a ty l kids]; intros D; inversion D; subst. assumption. Qed.
Lemma displays_tag n e : displays (erase n) e -> v_tag n = Some (el_name e).
Proof. destruct n as [s|t a ty l kids]; intros D; inversion D; subst. reflexivity. Qed.
Lemma displays_attr t a ty l kids e q : displays (erase (VElem t a ty l kids)) e -> q <> attr_id -> get q a = option_map cut (get q (el_attrs e)).
Proof. intros D Hq. inversion D; subst. cbn [el_attrs]. auto. Qed.
Lemma displays_listeners n e : displays (erase n) e -> v_listeners n = map (fun x => (cut (l_event x), l_name x)) (el_listeners e).
Proof. destruct n as [s|t a ty l kids]; intros D; inversion D; subst. reflexivity. Qed.
Lemma page_above n dom p x : displays (erase n) dom -> node_at p [n] = Some x -> is_elem x -> forall i, In (Some i) (above p [n]) -> exists y, i = dec y /\ In y (parents dom).
Proof.
  intros D H Hx i Hi. destruct (page_line n dom p x D H Hx) as (es & Hl & F). unfold above, look in Hi. rewrite <- map_tl, map_map in Hi. apply in_map_iff in Hi as (v & Hv & Hin).
  pose proof (line_parents _ _ Hl) as Hpar. inversion F as [E1 E2|v0 e0 vs es' H0 F' E1 E2]; [rewrite <- E1 in Hin; destruct Hin|]. rewrite <- E1 in Hin. rewrite <- E2 in Hpar. cbn [tl] in *.
  clear -Hv Hin F' Hpar. induction F' as [|v' e' vs es Hd F IH]; [destruct Hin|]. inversion Hpar; subst. destruct Hin as [->|Hin]; [|auto].
  cbn in Hv. rewrite (displays_id _ _ Hd) in Hv. injection Hv as <-. eauto.
Qed.

(* ------------------------------------------------------------------ *)
(** ** What was typed never spreads *)
Section Measure.
Context {X : Type} (own : hmap str -> option str -> list X).
Hypothesis own_none : forall a, own a None = [].
Fixpoint tm (n : vnode) : list X := match n with VText _ => [] | VElem _ a ty _ kids => own a ty ++ flat_map tm kids end.
Lemma tm_fresh n : tm (fresh n) = [].
Proof.
  induction n as [s|t a l kids IH] using cnode_ind2; [reflexivity|]. cbn [fresh tm]. rewrite own_none. cbn [app]. induction IH as [|k kids Hk _ IH]; [reflexivity|]. cbn [map flat_map]. now rewrite Hk, IH.
Qed.
Lemma tm_freshes ns : flat_map tm (map fresh ns) = [].
Proof. induction ns as [|n ns IH]; [reflexivity|]. cbn [map flat_map]. now rewrite tm_fresh, IH. Qed.
Lemma tm_clone n : tm (v_clone n) = tm n.
Proof.
  induction n as [s|t a ty l kids IH] using vnode_ind2; [reflexivity|]. cbn [v_clone tm]. f_equal. induction IH as [|k kids Hk _ IH]; [reflexivity|]. cbn [map flat_map]. now rewrite Hk, IH.
Qed.
Lemma edits_tm_aux i f ns : (forall n r, f n = Some r -> incl (flat_map tm r) (tm n)) ->
  Forall (fun n => forall r, v_edit i f n = Some (Some r) -> incl (flat_map tm r) (tm n)) ns -> forall r, v_edits i f ns = Some (Some r) -> incl (flat_map tm r) (flat_map tm ns).
Proof.
  intros Hf. induction 1 as [|n ns Hn _ IH]; intros r E; [discriminate|]. cbn [v_edits] in E. destruct (v_edit i f n) as [[r1|]|]; try discriminate.
  - injection E as <-. rewrite flat_map_app. cbn [flat_map]. apply incl_app; [apply incl_appl; now apply Hn|apply incl_appr, incl_refl].
  - destruct (v_edits i f ns) as [[r1|]|]; try discriminate. injection E as <-. cbn [flat_map]. apply incl_app; [apply incl_appl, incl_refl|apply incl_appr; now apply IH].
Qed.
Lemma edit_tm i f n : (forall n r, f n = Some r -> incl (flat_map tm r) (tm n)) -> forall r, v_edit i f n = Some (Some r) -> incl (flat_map tm r) (tm n).
Proof.
  intros Hf. induction n as [s|t a ty l kids IH] using vnode_ind2; intros r E; [discriminate|]. rewrite v_edit_eq in E. destruct (v_has_id i _); [injection E as E; now apply Hf|].
  destruct (v_edits i f kids) as [[k|]|] eqn:Ek; try discriminate. injection E as <-. cbn [flat_map tm]. rewrite app_nil_r. apply incl_app; [apply incl_appl, incl_refl|apply incl_appr]. now apply (edits_tm_aux i f kids Hf IH).
Qed.
Lemma by_id_tm i f d d' : (forall n r, f n = Some r -> incl (flat_map tm r) (tm n)) -> v_by_id i f d = Some d' -> incl (flat_map tm d') (flat_map tm d).
Proof.
  intros Hf. unfold v_by_id. destruct (v_edits i f d) as [[r|]|] eqn:E; try discriminate. intros [= <-]. apply (edits_tm_aux i f d Hf); [|exact E]. apply Forall_forall. intros n _. now apply edit_tm.
Qed.
(** Instructions whose attribute changes the measure does not see. *)
Definition unseen (o : jsop) : Prop :=
  (forall p k v a ty, js_ty o = bs "setAttr" -> js_payload o = Some p -> part 0 p = Some k -> own (insert (to_lower k) v a) ty = own a ty) /\
  (forall p a ty, js_ty o = bs "removeAttr" -> js_payload o = Some p -> own (remove (to_lower p) a) ty = own a ty) /\
  (forall p a ty, js_ty o = bs "setId" -> js_payload o = Some p -> own (insert attr_id p a) ty = own a ty).
Lemma exec_tm reparse o d d' : unseen o -> v_exec reparse o d = Some d' -> incl (flat_map tm d') (flat_map tm d).
Proof.
  intros (U1 & U2 & U3). unfold v_exec. cbv zeta.
  assert (forall t a ty l l' kids, flat_map tm [VElem t a ty l' kids] = tm (VElem t a ty l kids)) as Same by (intros; cbn [flat_map tm]; now rewrite app_nil_r).
  destruct (str_eqb (js_ty o) (bs "createTag")).
  { destruct (js_payload o) as [p|]; [|discriminate]. destruct (part 0 p) as [name|]; [|discriminate]. destruct (make_el name (js_el o)) as [el|]; [|discriminate].
    assert (forall q, v_by_id q (fun n => match n with VElem t a ty l kids => Some [VElem t a ty l (kids ++ [fresh el])] | VText _ => None end) d = Some d' -> incl (flat_map tm d') (flat_map tm d)) as B.
    { intros q. apply by_id_tm. intros [s|t a ty l kids] r; [discriminate|]. intros [= <-]. cbn [flat_map tm]. rewrite flat_map_app. cbn [flat_map]. rewrite tm_fresh, !app_nil_r. apply incl_refl. }
    assert (Some (d ++ [fresh el]) = Some d' -> incl (flat_map tm d') (flat_map tm d)) as A.
    { intros [= <-]. rewrite flat_map_app. cbn [flat_map]. rewrite tm_fresh, !app_nil_r. apply incl_refl. }
    destruct (part 1 p) as [[|b q]|]; [exact A|exact (B _)|exact A]. }
  destruct (str_eqb (js_ty o) (bs "setAttr")) eqn:E1.
  { apply str_eqb_eq in E1. destruct (js_payload o) as [p|]; [|discriminate]. apply by_id_tm. intros [s|t a ty l kids] r; [discriminate|]. destruct (part 0 p) as [k|] eqn:Ek; [|discriminate].
    destruct (valid_name k); [|discriminate]. intros [= <-]. cbn [flat_map tm]. rewrite (U1 p k _ a ty E1 eq_refl Ek), app_nil_r. apply incl_refl. }
  destruct (str_eqb (js_ty o) (bs "removeAttr")) eqn:E2.
  { apply str_eqb_eq in E2. destruct (js_payload o) as [p|]; [|discriminate]. apply by_id_tm. intros [s|t a ty l kids] r; [discriminate|].
    intros [= <-]. cbn [flat_map tm]. rewrite (U2 p a ty E2 eq_refl), app_nil_r. apply incl_refl. }
  destruct (str_eqb (js_ty o) (bs "setTagName")).
  { destruct (js_payload o) as [p|]; [|discriminate]. apply by_id_tm. intros [s|t a ty l kids] r; [discriminate|]. destruct (valid_name p); [|discriminate]. intros [= <-].
    cbn [flat_map tm]. rewrite own_none, tm_freshes. cbn [app]. apply incl_nil_l. }
  destruct (str_eqb (js_ty o) (bs "setText")).
  { destruct (js_payload o) as [p|]; [|discriminate]. apply by_id_tm. intros [s|t a ty l kids] r; [discriminate|]. intros [= <-]. cbn [flat_map tm]. rewrite tm_freshes, !app_nil_r. apply incl_appl, incl_refl. }
  destruct (str_eqb (js_ty o) (bs "attachListener")).
  { destruct (js_payload o) as [p|]; [|discriminate]. apply by_id_tm. intros [s|t a ty l kids] r; [discriminate|]. destruct (part 0 p); [|discriminate]. destruct (part 1 p); [|discriminate].
    intros [= <-]. rewrite (Same t a ty l). apply incl_refl. }
  destruct (str_eqb (js_ty o) (bs "removeListeners")).
  { apply by_id_tm. intros n r [= <-]. cbn [flat_map]. rewrite tm_clone, app_nil_r. apply incl_refl. }
  destruct (str_eqb (js_ty o) (bs "deleteEl")).
  { apply by_id_tm. intros n r [= <-]. apply incl_nil_l. }
  destruct (str_eqb (js_ty o) (bs "setId")) eqn:E3.
  { apply str_eqb_eq in E3. destruct (js_payload o) as [p|]; [|discriminate]. apply by_id_tm. intros [s|t a ty l kids] r; [discriminate|]. intros [= <-].
    cbn [flat_map tm]. rewrite (U3 p a ty E3 eq_refl), app_nil_r. apply incl_refl. }
  intros [= <-]. apply incl_refl.
Qed.
Lemma run_tm reparse os : Forall unseen os -> forall d d' ok, v_run reparse os d = (d', ok) -> incl (flat_map tm d') (flat_map tm d).
Proof.
  induction 1 as [|o os U _ IH]; intros d d' ok E; cbn [v_run] in E; [injection E as <- _; apply incl_refl|]. destruct (v_exec reparse o d) as [d1|] eqn:E1; [|injection E as <- _; apply incl_refl].
  eapply incl_tran; [eapply IH; eauto|eapply exec_tm; eauto].
Qed.
End Measure.
(** All the texts typed, and all with the id of the element. *)
Definition texts_typed (d : list vnode) : list str := flat_map (tm (fun _ ty => match ty with Some t => [t] | None => [] end)) d.
Definition ids_typed (d : list vnode) : list (option str) := flat_map (tm (fun a ty => match ty with Some _ => [get attr_id a] | None => [] end)) d.
Lemma message_texts reparse text d d' ok : v_message reparse text d = (d', ok) -> incl (texts_typed d') (texts_typed d).
Proof.
  unfold v_message. destruct (read_message text) as [os|]; [|intros [= <- _]; apply incl_refl]. apply run_tm; [reflexivity|].
  apply Forall_forall. intros o _. repeat split; reflexivity.
Qed.

(* ------------------------------------------------------------------ *)
(** ** Typing *)
Definition retyped (t : str) (x : vnode) : vnode := match x with VElem tag a _ l kids => VElem tag a (Some t) l kids | VText s => VText s end.
Lemma nth_update f : forall ns j n, nth_error ns j = Some n -> nth_error (update_nth j f ns) j = Some (f n).
Proof. induction ns as [|m ns IH]; intros [|j] n E; try discriminate; cbn [update_nth nth_error] in *; [now injection E as <-|auto]. Qed.
Lemma node_at_type t p : forall ns x, node_at p ns = Some x -> node_at p (type_at t p ns) = Some (retyped t x).
Proof.
  induction p as [|j p IH]; intros ns x H; [discriminate|]. cbn [type_at]. destruct p as [|k p].
  - cbn [node_at] in *. erewrite nth_update by exact H. destruct x; reflexivity.
  - cbn [node_at] in H. destruct (nth_error ns j) as [[s|tag a ty l kids]|] eqn:E; try discriminate. cbn [node_at]. erewrite nth_update by exact E. apply IH. exact H.
Qed.
Lemma grown_parents2 a b : grown a b -> incl (parents a) (parents b).
Proof.
  revert a b. apply grown_ind2. intros i n a a' l l' cs cs' more t t' _ F _ x. cbn [parents]. rewrite !in_app_iff, flat_map_app. intros [H|H].
  - left. inversion F; subst; [destruct H|exact H].
  - right. apply in_or_app. left. induction F as [|c d cs1 ds1 Hc F IH]; [destruct H|]. cbn [flat_map] in *. apply in_app_or in H as [H|H]; apply in_or_app; [left; now apply Hc|right; now apply IH].
Qed.
Lemma look_at p ns x ns' : look p ns' = look p ns -> is_place p ns' -> p <> [] -> node_at p ns = Some x -> exists x', node_at p ns' = Some x' /\ v_info x' = v_info x.
Proof.
  intros L P Hp H. destruct (node_at_some _ _ _ H) as [P0 H0]. rewrite (node_at_way p ns' Hp P). unfold look in L.
  destruct (on_the_way p ns) as [|y ys]; [discriminate|]. injection H0 as ->. destruct (on_the_way p ns') as [|z zs]; [discriminate|]. cbn [map] in L. injection L as L1 L2 L3 _. exists z. split; [reflexivity|].
  unfold v_info. congruence.
Qed.
