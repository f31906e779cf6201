(** What the browser of a chat user does with the texts it reads. *)
From Verif Require Import Base HMap Num Json DomModel DomSpec DomProofs DomProofs2 DomProofs3 DomProofs4 HtmlModel ClientModel ClientSpec ClientProofs ClientProofs2 BrowserProofs
  ComponentModel JsonSpec JsonProofs ComponentSpec ComponentProofs ComponentProofs2 ChatModel ChatSpec ChatProofs2 PropBrowser UserModel UserProofs UserSpec UserProofs2 UserProofs3 DeskSpec DeskProofs PropClient.
From Verif Require WsModel InnerHtml.
From Coq Require Import Lia.

Definition id_safe (o : op) : Prop :=
  match op_instr o with
  | SetAttribute k _ => to_lower (cut k) <> attr_id
  | RemoveAttribute k => to_lower k <> attr_id
  | SetId _ => False
  | _ => True
  end.
Lemma calm_id_safe o : calm o -> id_safe o.
Proof. unfold calm, id_safe. destruct (op_instr o); auto. Qed.
Lemma id_safe_unseen o : id_safe o -> unseen (fun a ty => match ty with Some _ => [get attr_id a] | None => [] end) (js_op o).
Proof.
  unfold id_safe, unseen. destruct o as [i ins]. cbn [op_instr]. intros H.
  assert (forall k v (a : hmap str), k <> attr_id -> get attr_id (insert k v a) = get attr_id a) as G1.
  { intros k v a Hk. rewrite get_insert. destruct (str_eqb attr_id k) eqn:E; [apply str_eqb_eq in E; congruence|reflexivity]. }
  assert (forall k (a : hmap str), k <> attr_id -> get attr_id (remove k a) = get attr_id a) as G2.
  { intros k a Hk. rewrite get_remove. destruct (str_eqb attr_id k) eqn:E; [apply str_eqb_eq in E; congruence|reflexivity]. }
  destruct ins; cbn [js_op js_ty js_payload op_ty op_payload op_instr op_id]; (split; [|split]); intros; try discriminate; try contradiction.
  - match goal with E : Some _ = Some ?p, P : part 0 ?p = Some ?k |- _ => injection E as <-; rewrite part0_cut, cut_app in P; injection P as <- end. destruct ty; [|reflexivity]. now rewrite G1.
  - match goal with E : Some _ = Some ?p |- _ => injection E as <- end. destruct ty; [|reflexivity]. now rewrite G2.
Qed.
Lemma leaf_grown i n a a' l l' t t' : grown (Element i n a l [] t None) (Element i n a' l' [] t' None).
Proof. apply (Grown i n a a' l l' [] [] []); [constructor|now left]. Qed.
Lemma wrap_grown i n a a' l l' cs ds t : Forall2 grown cs ds -> grown (Element i n a l cs t None) (Element i n a' l' ds t None).
Proof. intros H. rewrite <- (app_nil_r ds). constructor; [exact H|now right]. Qed.
Lemma rows_grown ms : forall i ms', length ms <= length ms' -> exists ds more, row_elements i ms' = ds ++ more /\ Forall2 grown (row_elements i ms) ds.
Proof.
  induction ms as [|m ms IH]; intros i ms' H; [exists [], (row_elements i ms'); split; [reflexivity|constructor]|]. destruct ms' as [|m' ms']; [cbn in H; lia|]. cbn [length] in H.
  cbn [row_elements]. destruct (IH (i + 3)%N ms' ltac:(lia)) as (ds & more & -> & F). eexists (_ :: ds), more. split; [reflexivity|]. constructor; [|exact F].
  apply wrap_grown. constructor; [apply leaf_grown|constructor; [apply leaf_grown|constructor]].
Qed.
Lemma uninit_grown u u' : grown (uninit_element u) (uninit_element u').
Proof. unfold uninit_element. apply wrap_grown. repeat (constructor; [apply wrap_grown; constructor; [apply leaf_grown|constructor]|]). constructor. Qed.
Lemma init_grown u u' id ms ms' comp comp' : length ms <= length ms' -> grown (init_element u id ms comp) (init_element u' id ms' comp').
Proof.
  intros H. unfold init_element. destruct (rows_grown ms 7 ms' H) as (ds & more & -> & F). rewrite app_comm_cons. constructor; [|now right]. constructor; [|exact F].
  apply wrap_grown. constructor; [apply leaf_grown|]. repeat (constructor; [apply wrap_grown; constructor; [apply leaf_grown|constructor]|]). constructor.
Qed.
Lemma chat_tidy c : tidy (chat_element c).
Proof. split; [|apply chat_neat]. apply (proper_wf (chat_size c)). apply chat_proper. lia. Qed.
Lemma chat_nodup c : NoDup (ids (chat_element c)).
Proof. apply (numbered_range _ _ _ (proj1 (chat_numbered c))). Qed.

Section Read.
Context (reparse : str -> str -> list node -> list node) (Hre : InnerHtml.standard reparse).
Lemma read_any n c c' os : displays (erase n) (chat_element c) -> follows c c' -> diff (chat_element c) (Some (chat_element c')) = Some os ->
  exists n', v_message reparse (wire os) [n] = ([n'], true) /\ displays (erase n') (chat_element c').
Proof.
  intros D F E. destruct (browser_updates_cut reparse Hre _ _ (follows_safe _ _ F) (chat_tidy c) (chat_tidy c')) as (os' & E' & H). assert (os' = os) as -> by congruence.
  destruct (H _ D) as (y & Dy & R). pose proof (message_erase reparse (wire os) [n]) as M. cbn [map] in M. destruct (v_message reparse (wire os) [n]) as [d k]. rewrite R in M. injection M as M <-.
  destruct d as [|n' [|? ?]]; try discriminate. injection M as ->. eauto.
Qed.
Lemma read_typed n a b os n' q x : displays (erase n) a -> grown a b -> neat a -> neat b -> NoDup (ids b) -> diff a (Some b) = Some os -> node_at q [n] = Some x -> is_elem x ->
  v_message reparse (wire os) [n] = ([n'], true) -> exists x', node_at q [n'] = Some x' /\ v_typed x' = v_typed x.
Proof.
  intros D G Na Nb Hb E Hx He Em. assert (q <> []) as Hq by (intros ->; discriminate). unfold v_message in Em. rewrite read_wire in Em.
  pose proof (ops_grown a b G Na Nb Hb os E) as Ho. pose proof (page_above n a q x D Hx He) as Ab.
  destruct (run_look reparse q Hq os [n] [n'] true) as [P L]; [| |exact Em|apply (node_at_some _ _ _ Hx)|].
  - apply Forall_forall. intros o Hin. apply (Ho o Hin).
  - intros o v Hin Hv Hab. destruct (Ho o Hin) as (_ & Ht). destruct (Ht v Hv) as (y & Ey & _ & Hy). apply Ab in Hab as (z & Ez & Hz). rewrite Ey in Ez. apply dec_inj in Ez as ->. now apply Hy.
  - destruct (look_at q [n] x [n'] L P Hq Hx) as (x' & Hx' & Hi). exists x'. split; [exact Hx'|]. unfold v_info in Hi. congruence.
Qed.
Lemma ids_typed_kept os n n' : Forall id_safe os -> v_message reparse (wire os) [n] = ([n'], true) -> incl (ids_typed [n']) (ids_typed [n]).
Proof.
  intros F E. unfold v_message in E. rewrite read_wire in E. unfold ids_typed. eapply run_tm; [reflexivity| |exact E]. apply Forall_map. eapply Forall_impl; [|exact F]. apply id_safe_unseen.
Qed.
Lemma read_uninit n u u' os m2 t2 : displays (erase n) (uninit_element u) -> on_uninit n m2 t2 -> diff (uninit_element u) (Some (uninit_element u')) = Some os ->
  exists n' m2', v_message reparse (wire os) [n] = ([n'], true) /\ displays (erase n') (uninit_element u') /\ on_uninit n' m2' t2 /\ get (bs "value") m2' = Some (cut u') /\ get attr_id m2' = Some (bs "2") /\
    incl (ids_typed [n']) (ids_typed [n]).
Proof.
  intros D O E. destruct (read_any n (Uninitialized u) (Uninitialized u') os D (f_typed u u') E) as (n' & Em & D'). destruct (uninit_shape n' u' D') as (m2' & t2' & O' & I2 & V2).
  destruct (read_typed n (uninit_element u) (uninit_element u') os n' _ _ D (uninit_grown u u') (chat_neat (Uninitialized u)) (chat_neat (Uninitialized u')) (chat_nodup (Uninitialized u')) E (uninit_at _ _ _ O) Logic.I Em) as (x' & Hx' & Ht).
  rewrite (uninit_at _ _ _ O') in Hx'. injection Hx' as <-. cbn [v_typed] in Ht. subst t2'. exists n', m2'. repeat split; auto.
  apply (ids_typed_kept os); [|exact Em]. apply Forall_forall. intros o Ho. apply calm_id_safe. exact (proj1 (ops_grown (uninit_element u) (uninit_element u') (uninit_grown u u') (chat_neat (Uninitialized u)) (chat_neat (Uninitialized u')) (chat_nodup (Uninitialized u')) os E o Ho)).
Qed.
Lemma read_init n u u' id ms ms' comp comp' os m4 t4 : length ms <= length ms' -> displays (erase n) (init_element u id ms comp) -> on_init n m4 t4 ->
  diff (init_element u id ms comp) (Some (init_element u' id ms' comp')) = Some os ->
  exists n' m4', v_message reparse (wire os) [n] = ([n'], true) /\ displays (erase n') (init_element u' id ms' comp') /\ on_init n' m4' t4 /\ get (bs "value") m4' = Some (cut comp').
Proof.
  intros Hl D O E. destruct (read_any n (Initialized u id ms comp) (Initialized u' id ms' comp') os D (f_changed u u' id ms ms' comp comp' Hl) E) as (n' & Em & D').
  destruct (init_shape n' u' id ms' comp' D') as (m4' & t4' & O' & I4 & V4).
  destruct (read_typed n (init_element u id ms comp) (init_element u' id ms' comp') os n' _ _ D (init_grown u u' id ms ms' comp comp' Hl) (chat_neat (Initialized u id ms comp)) (chat_neat (Initialized u' id ms' comp'))
    (chat_nodup (Initialized u' id ms' comp')) E (init_at _ _ _ O) Logic.I Em) as (x' & Hx' & Ht).
  rewrite (init_at _ _ _ O') in Hx'. injection Hx' as <-. cbn [v_typed] in Ht. subst t4'. exists n', m4'. repeat split; auto.
Qed.
Lemma join_ops u txt : let b := Element 0 (bs "div") [] [] [Element 1 (bs "div") [] []
       [Element 2 (bs "p") [] [] [] (Some txt) None;
        Element 3 (bs "div") [] [] [Element 4 (bs "input") [(bs "value", []); (bs "type", bs "text"); (bs "placeholder", bs "send a new message...")] [Listener (bs "update_message_contents") (bs "input")] [] None None] None None;
        Element 5 (bs "div") [] [] [Element 6 (bs "input") [(bs "type", bs "submit"); (bs "value", bs "send message")] [Listener (bs "submit_message") (bs "click")] [] None None] None None] None None] None None in
  exists os, diff (uninit_element u) (Some b) = Some os /\ Forall id_safe os.
Proof.
  cbv zeta. eexists. split; [vm_compute; reflexivity|]. repeat (apply Forall_cons; [try exact Logic.I; vm_compute; discriminate|]). apply Forall_nil.
Qed.
Lemma read_join n u u' id os : displays (erase n) (uninit_element u) -> incl (ids_typed [n]) [Some (bs "2")] -> diff (uninit_element u) (Some (init_element u' id [] [])) = Some os ->
  exists n' m4, v_message reparse (wire os) [n] = ([n'], true) /\ displays (erase n') (init_element u' id [] []) /\ on_init n' m4 None /\ get (bs "value") m4 = Some [].
Proof.
  intros D I E. destruct (read_any n (Uninitialized u) (Initialized u' id [] []) os D (f_registered u u' id) E) as (n' & Em & D').
  destruct (init_shape n' u' id [] [] D') as (m4 & t4 & O' & I4 & V4). destruct t4 as [t|]; [exfalso|exists n', m4; auto].
  assert (Forall id_safe os) as Fs. { destruct (join_ops u (bs "Hello " ++ u' ++ bs " (user_id: " ++ dec id ++ bs ")!")) as (os' & E' & F). assert (Some os' = Some os) as X by (rewrite <- E, <- E'; reflexivity). injection X as <-. exact F. }
  pose proof (ids_typed_kept os n n' Fs Em) as Hi. assert (In (Some (bs "4")) (ids_typed [n'])) as Hin.
  { destruct O' as (m0 & t0 & m1 & t1 & pn & m3 & t3 & m5 & t5 & m6 & t6 & rows & -> & _). unfold ids_typed. cbn [flat_map tm app]. rewrite I4. rewrite !in_app_iff. cbn [In]. tauto. }
  apply Hi, I in Hin. destruct Hin as [Hin|[]]. discriminate.
Qed.
End Read.
