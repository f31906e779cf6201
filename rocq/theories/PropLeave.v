(** * C118: using a page does not leave it *)
From Verif Require Import Base HMap Json Num DomModel HtmlModel DomSpec DomProofs4 ClientModel ClientSpec ClientProofs ComponentModel ComponentSpec ComponentProofs PropClient
  InnerHtml InnerHtmlProofs PropMarkup UserModel UserProofs LeaveModel ChatModel ChatSpec ChatProofs2 PropUser.
From Coq Require Import Lia.

(** ** Specification *)

(** Somewhere in the document there is such an element. *)
Inductive within (P : vnode -> Prop) : list vnode -> Prop :=
| within_here doc n : In n doc -> P n -> within P doc
| within_below doc t a ty l kids : In (VElem t a ty l kids) doc -> within P kids -> within P doc.
(** The listener name is used for submit events only. *)
Definition only_submit (name : str) (doc : list vnode) : Prop :=
  forall ev, within (fun n => In (ev, name) (v_listeners n)) doc -> ev = bs "submit".
(** What the component is told: some listener of this name was triggered. *)
Definition tells (t name : str) : Prop := exists v, client_message t = Some (name, v).

(** ** Proofs *)

Lemma node_at_within (P : vnode -> Prop) p doc n : node_at p doc = Some n -> P n -> within P doc.
Proof.
  revert doc. induction p as [|j p IH]; intros doc; cbn [node_at]; [discriminate|]. destruct p as [|j' p'].
  - intros H Hp. apply nth_error_In in H. econstructor 1; eauto.
  - destruct (nth_error doc j) as [[s|t a ty l kids]|] eqn:E; try discriminate. intros H Hp. apply nth_error_In in E. eapply within_below; [exact E|]. now apply IH.
Qed.
Lemma way_within p : forall doc n, In n (on_the_way p doc) -> forall P : vnode -> Prop, P n -> within P doc.
Proof.
  induction p as [|j p IH]; intros doc n; cbn [on_the_way]; [intros []|]. destruct (nth_error doc j) as [x|] eqn:E; [|intros []]. apply nth_error_In in E.
  intros H P Hp. apply in_app_iff in H as [H|[<-|[]]]; [|econstructor 1; eauto].
  destruct x as [s|t a ty l kids]; [destruct p; cbn in H; [destruct H|destruct n0; destruct H]|]. eapply within_below; [exact E|]. eapply IH; eauto.
Qed.

(** A text sent for an event names a listener for that event. *)
Lemma sends_tells ev p doc t name : In t (sends ev p doc) -> tells t name -> within (fun n => In (ev, name) (v_listeners n)) doc.
Proof.
  unfold sends. destruct (node_at p doc) as [target|]; [|intros []]. intros H Ht. apply in_flat_map in H as (n & Hn & H). apply in_flat_map in H as ([ev' nm] & Hl & H).
  cbn [fst snd] in H. destruct (str_eqb ev' ev) eqn:Ee; [|destruct H]. apply str_eqb_eq in Ee as ->. destruct (js_event ev nm (field_value target)) as [t'|] eqn:Ej; [|destruct H].
  destruct H as [->|[]]. assert (nm = name) as ->.
  { destruct Ht as (v & Hv). unfold js_event in Ej.
    destruct (str_eqb ev (bs "click")); [|destruct (str_eqb ev (bs "submit")); [|destruct (str_eqb ev (bs "input")); [|discriminate]]];
      [pose proof (client_message_listener nm) as Hc|pose proof (client_message_listener nm) as Hc|pose proof (client_message_value nm (field_value target)) as Hc];
      match type of Ej with Some ?x = Some ?y => assert (x = y) as Et by exact (f_equal (fun o => match o with Some z => z | None => [] end) Ej) end;
      rewrite Et in Hc; rewrite Hc in Hv; exact (f_equal (fun o => match o with Some (z, _) => z | None => [] end) Hv). }
  eapply way_within; [exact Hn|exact Hl].
Qed.

Lemma not_click ev : ev = bs "click" \/ ev = bs "input" -> ev <> bs "submit".
Proof. intros [->| ->]; discriminate. Qed.

Lemma within_erase l doc : within (fun n => In l (v_listeners n)) doc -> forall doc2, map erase doc = map erase doc2 -> within (fun n => In l (v_listeners n)) doc2.
Proof.
  induction 1 as [doc n Hn Hl|doc t a ty ls kids Hn H IH]; intros doc2 E.
  - assert (In (erase n) (map erase doc2)) as Hi by (rewrite <- E; now apply in_map). apply in_map_iff in Hi as (m & Em & Hm).
    econstructor 1; [exact Hm|]. destruct n as [s|t a ty ls kids], m as [s'|t' a' ty' ls' kids']; cbn [erase] in Em; try discriminate Em; [exact Hl|].
    injection Em as _ _ -> _. exact Hl.
  - assert (In (erase (VElem t a ty ls kids)) (map erase doc2)) as Hi by (rewrite <- E; now apply in_map). apply in_map_iff in Hi as (m & Em & Hm).
    destruct m as [s'|t' a' ty' ls' kids']; cbn [erase] in Em; [discriminate Em|]. injection Em as _ _ _ Ek. eapply within_below; [exact Hm|]. apply IH. now symmetry.
Qed.

Lemma activate_stays q doc t : activate_at q doc = (t, false) -> t = [].
Proof.
  unfold activate_at, submit_form. destruct (node_at q doc); [|congruence]. destruct (is_link _); [congruence|]. destruct (_ && _); [|congruence].
  destruct (form_owner q doc); congruence.
Qed.

(** ** C118 *)

(** A listener for submit events tells the component something only when the browser leaves the page. *)
Theorem C118_submit_leaves : forall g doc doc' sent leaves t name,
  gesture_act g doc = (doc', sent, leaves) -> only_submit name doc -> In t sent -> tells t name -> leaves = true.
Proof.
  intros g doc doc' sent leaves t name E Ho Hin Ht. destruct leaves; [reflexivity|exfalso].
  assert (forall ev p, ev = bs "click" \/ ev = bs "input" -> ~ In t (sends ev p doc)) as No.
  { intros ev p He H. apply (not_click ev He). apply Ho. eapply sends_tells; eauto. }
  destruct g as [p x|p|p]; cbn [gesture_act] in E.
  - cbn [act] in E. injection E as <- <-. apply (not_click (bs "input")); [auto|]. apply Ho.
    apply (within_erase _ (type_at x p doc)); [|apply erase_type]. eapply sends_tells; eauto.
  - unfold click in E. assert (forall more l, (let '(t0, l0) := let '(more0, leaves) := (more, l) in (sends (bs "click") p doc ++ more0, leaves) in (doc, t0, l0)) = (doc', sent, false) ->
      l = false -> ~ In t more -> False) as G.
    { intros more l [= <- <- <-] _ Hm. apply in_app_iff in Hin as [H|H]; [apply (No (bs "click") p); auto|auto]. }
    destruct (nearest reacts p doc) as [q|]; [|eapply G; eauto; intros []].
    destruct (node_at q doc) as [n|]; [|eapply G; eauto; intros []].
    destruct (str_eqb (v_tag n) (bs "label")).
    + destruct (labeled_control q doc) as [c|]; [|eapply G; eauto; intros []].
      destruct (activate_at c doc) as [t' l'] eqn:Ea. assert (l' = false) as -> by (cbn in E; congruence). apply activate_stays in Ea as ->.
      eapply G; eauto. rewrite app_nil_r. apply No; auto.
    + destruct (activate_at q doc) as [t' l'] eqn:Ea. assert (l' = false) as -> by (cbn in E; congruence). apply activate_stays in Ea as ->. eapply G; eauto.
  - unfold press_enter, submit_form in E. destruct (node_at p doc) as [n|]; [|injection E as <- <-; destruct Hin].
    destruct (text_field n); [|injection E as <- <-; destruct Hin]. destruct (form_owner p doc) as [f|]; [|injection E as <- <-; destruct Hin].
    destruct (find _ _) as [q|].
    + destruct (node_at q doc) as [m|]; [|injection E as <- <-; destruct Hin]. destruct (v_has _ m); [injection E as <- <-; destruct Hin|discriminate].
    + destruct (Nat.leb _ _); [discriminate|injection E as <- <-; destruct Hin].
Qed.

(** Whoever made the document: without forms and [href] attributes nothing the user does leaves the page. *)
Lemma vnode_made T K n : made_of T K (erase n) -> match n with VText _ => True | VElem t a _ _ kids => T t /\ Forall (fun kv => K (fst kv)) a /\ Forall (fun k => made_of T K (erase k)) kids end.
Proof.
  destruct n as [s|t a ty l kids]; [auto|]. cbn [erase]. rewrite made_elem. intros (H1 & H2 & H3). repeat split; auto. now rewrite Forall_map in H3.
Qed.
Lemma node_at_made T K p : forall doc n, Forall (made_of T K) (map erase doc) -> node_at p doc = Some n -> made_of T K (erase n).
Proof.
  induction p as [|j p IH]; intros doc n Hd; cbn [node_at]; [discriminate|]. rewrite Forall_map in Hd. destruct p as [|j' p'].
  - intros H. apply nth_error_In in H. rewrite Forall_forall in Hd. now apply Hd.
  - destruct (nth_error doc j) as [[s|t a ty l kids]|] eqn:E; try discriminate. apply nth_error_In in E. rewrite Forall_forall in Hd. pose proof (vnode_made _ _ _ (Hd _ E)) as (_ & _ & Hk).
    intros H. apply (IH kids); [now rewrite Forall_map|exact H].
Qed.
Lemma no_owner (T K : str -> Prop) doc p : Forall (made_of T K) (map erase doc) -> ~ T (bs "form") -> form_owner p doc = None.
Proof.
  intros Hd Ht. assert (forall q n, node_at q doc = Some n -> is_form n = false) as Nf.
  { intros q n Hn. pose proof (vnode_made _ _ _ (node_at_made _ _ _ _ _ Hd Hn)) as Hm. unfold is_form. destruct n as [s|t a ty l kids]; [reflexivity|].
    cbn [v_tag]. destruct (str_eqb t (bs "form")) eqn:E; [|reflexivity]. apply str_eqb_eq in E as ->. now destruct Hm. }
  unfold form_owner. destruct (node_at p doc) as [n|]; [|reflexivity]. destruct (v_attr (bs "form") n) as [i|].
  - destruct (first_place _ _) as [q|]; [|reflexivity]. destruct (node_at q doc) as [m|] eqn:E; [|reflexivity]. now rewrite (Nf q m E).
  - unfold nearest. destruct (find _ _) as [q|] eqn:E; [|reflexivity]. apply find_some in E as [_ E]. destruct (node_at q doc) as [m|] eqn:Eq; [|discriminate]. rewrite (Nf q m Eq) in E. discriminate.
Qed.
Lemma no_link (T K : str -> Prop) n : made_of T K (erase n) -> ~ K (bs "href") -> is_link n = false.
Proof.
  intros Hm Hk. apply vnode_made in Hm. unfold is_link, v_has. destruct n as [s|t a ty l kids]; [reflexivity|]. destruct Hm as (_ & Ha & _). cbn [v_attr].
  destruct (get (bs "href") a) as [v|] eqn:E; [|apply andb_false_r]. apply get_some_in in E. rewrite Forall_forall in Ha. destruct (Hk (Ha _ E)).
Qed.
Lemma stays_made (T K : str -> Prop) doc g : Forall (made_of T K) (map erase doc) -> ~ T (bs "form") -> ~ K (bs "href") -> snd (gesture_act g doc) = false.
Proof.
  intros Hd Ht Hk. assert (forall q, activate_at q doc = ([], false)) as Ha.
  { intros q. unfold activate_at. destruct (node_at q doc) as [n|] eqn:E; [|reflexivity]. rewrite (no_link T K n (node_at_made _ _ _ _ _ Hd E) Hk).
    destruct (_ && _); [|reflexivity]. now rewrite (no_owner T K doc q Hd Ht). }
  destruct g as [p x|p|p]; cbn [gesture_act].
  - destruct (act _ _). reflexivity.
  - unfold click. destruct (nearest reacts p doc) as [q|]; [|reflexivity]. destruct (node_at q doc) as [n|]; [|reflexivity].
    destruct (str_eqb _ _); [|now rewrite Ha]. destruct (labeled_control q doc) as [c|]; [|reflexivity]. now rewrite Ha.
  - unfold press_enter. destruct (node_at p doc) as [n|]; [|reflexivity]. destruct (text_field n); [|reflexivity]. now rewrite (no_owner T K doc p Hd Ht).
Qed.

(** Pages without a form and without an attribute [href]: nothing the user does leaves the page, after any number of
    updates, whatever was typed and whether or not the document still is in sync. *)
Theorem C118_stays_partial : forall reparse, frugal reparse -> forall first later outs doc ok shown g,
  Forall known_tags (first :: later) -> updates first later outs ->
  browse reparse (wire (create_from_scratch first None) :: outs) [] = (doc, ok) -> map erase shown = doc ->
  ~ In (bs "form") (flat_map tags_in (first :: later)) ->
  (forall k, In k (flat_map attrs_in (first :: later)) -> to_lower (cut k) <> bs "href") ->
  snd (gesture_act g shown) = false.
Proof.
  intros reparse Hf first later outs doc ok shown g Hk Hu Hb Hs Hform Hhref.
  pose proof (C107_text_is_not_markup_partial reparse Hf first later outs doc ok Hk Hu Hb) as Hm. subst doc.
  eapply stays_made; [exact Hm| |].
  - intros [H|H]; [discriminate H|auto].
  - intros [H|(q & Hq & H)]; [discriminate H|]. exact (Hhref q Hq (eq_sym H)).
Qed.

Lemma rows_tags ms i t : In t (flat_map tags_in (row_elements i ms)) -> t = bs "div" \/ t = bs "h3" \/ t = bs "p".
Proof.
  revert i. induction ms as [|m ms IH]; intros i; [intros []|]. cbn [row_elements flat_map tags_in app]. intros [<-|[<-|[<-|H]]]; auto. eauto.
Qed.
Lemma rows_attrs ms i k : ~ In k (flat_map attrs_in (row_elements i ms)).
Proof. revert i. induction ms as [|m ms IH]; intros i; [intros []|]. cbn [row_elements flat_map attrs_in app map]. apply IH. Qed.
Lemma chat_tags c : ~ In (bs "form") (tags_in (chat_element c)) /\ forall k, In k (attrs_in (chat_element c)) -> to_lower (cut k) <> bs "href".
Proof.
  destruct c as [u|u id ms comp]; cbn [chat_element uninit_element init_element tags_in attrs_in flat_map app map fst].
  - split; [intros H; repeat destruct H as [H|H]; try discriminate H; destruct H|]. intros k H. repeat destruct H as [<-|H]; try discriminate. destruct H.
  - split; [intros H; repeat (destruct H as [H|H]; [discriminate H|]); apply rows_tags in H as [H|[H|H]]; discriminate H|].
    intros k H. repeat (destruct H as [<-|H]; [discriminate|]). now apply rows_attrs in H.
Qed.

(** In a chat session nothing the user does ends the session. *)
Theorem C118_chat : forall reparse, frugal reparse -> forall e0 p ms ctx c dom ls out doc ok shown g,
  main_loop chat_component tt true ((e0, WhoAmI p) :: ms) = (Looping ctx c dom ls, out) ->
  browse reparse out [] = (doc, ok) -> map erase shown = doc ->
  snd (gesture_act g shown) = false.
Proof.
  intros reparse Hf e0 p ms ctx c dom ls out doc ok shown g H Hb Hs.
  destruct (C107_component_sessions reparse Hf unit linput chat (option linput) N chat_component tt e0 p ms ctx c dom ls out doc ok) as (c0 & d0 & l0 & cs & doms & _ & Hr & _ & Hp & Hm); auto.
  { intros x d l. rewrite chat_render. intros [= <- _]. exists (chat_page x), 0%N, (chat_size x). apply chat_into. }
  assert (Forall (fun d => exists x, d = chat_element x) (d0 :: doms)) as Hd.
  { constructor; [rewrite chat_render in Hr; injection Hr as <- _; eauto|]. clear -Hp. induction Hp as [|x d xs ds Hx _ IH]; constructor; auto.
    destruct Hx as (l & Hx). rewrite chat_render in Hx. injection Hx as <- _. eauto. }
  subst doc. rewrite Forall_forall in Hd. eapply stays_made; [exact Hm| |].
  - intros [H1|H1]; [discriminate H1|]. apply in_flat_map in H1 as (d & Hin & H1). destruct (Hd d Hin) as (x & ->). now apply chat_tags in H1.
  - intros [H1|(q & Hq & H1)]; [discriminate H1|]. apply in_flat_map in Hq as (d & Hin & Hq). destruct (Hd d Hin) as (x & ->). exact (proj2 (chat_tags x) q Hq (eq_sym H1)).
Qed.

(** A form with a field, a button and a listener for its submit event. *)
Definition form_page : wrapped :=
  Wrapped KForm [] [] [Listener (bs "send") (bs "submit")]
    [Wrapped KInput [(bs "type", bs "text"); (bs "name", bs "q")] [] [] [];
     Wrapped KInput [(bs "type", bs "submit")] [] [] []].
(** Submitting it, by a click on the button or by Enter in the field, tells the component so and leaves the page. *)
Theorem C118_form_refuted : exists a j, into_element form_page 0 = Some (a, j) /\ wrapped_ok form_page /\ clean a /\
  forall reparse, exists y, on_message reparse (wire (create_from_scratch a None)) [] = ([y], true) /\ shows y a /\
    gesture_act (ClicksOn [0; 1]) [fresh y] = ([fresh y], [bs "{""listener"":""send""}"], true) /\
    gesture_act (Enters [0; 0]) [fresh y] = ([fresh y], [bs "{""listener"":""send""}"], true).
Proof.
  eexists _, _. split; [cbv [into_element form_page arm_of new_id arm_children arm_name arm_attrs arm_listeners arm_text]; reflexivity|]. split; [repeat constructor; cbn; intuition discriminate|].
  match goal with |- clean ?a /\ _ => assert (clean a) as Hc end.
  { apply clean_one; [reflexivity|constructor|reflexivity|]. apply Forall_cons; [cleans|]. apply Forall_cons; [cleans|]. apply Forall_nil. }
  split; [exact Hc|]. intros reparse.
  match goal with |- exists y, on_message _ (wire (create_from_scratch ?a None)) [] = _ /\ _ => destruct (C58_first_paint_rendered reparse form_page a 3%N) as (os & y & E & Ho & Hs) end.
  { repeat constructor; cbn; intuition discriminate. }
  { vm_compute. reflexivity. }
  { exact Hc. }
  cbn [diff] in E. injection E as <-. exists y. split; [exact Ho|]. split; [exact Hs|].
  assert (y = paint (Element 0 (bs "form") [] [Listener (bs "send") (bs "submit")]
    [Element 1 (bs "input") [(bs "type", bs "text"); (bs "name", bs "q")] [] [] None None; Element 2 (bs "input") [(bs "type", bs "submit")] [] [] None None] None None)) as ->.
  { vm_compute in Ho. injection Ho as <-. vm_compute. reflexivity. }
  split; vm_compute; reflexivity.
Qed.

(** The form's document meets the hypotheses of [C118_submit_leaves]. *)
Definition form_doc : list vnode :=
  [VElem (bs "form") [(bs "id", bs "0")] None [(bs "submit", bs "send")]
     [VElem (bs "input") [(bs "id", bs "1"); (bs "type", bs "text")] None [] [];
      VElem (bs "input") [(bs "id", bs "2"); (bs "type", bs "submit")] None [] []]].
Example C118_example_submit : only_submit (bs "send") form_doc /\ tells (bs "{""listener"":""send""}") (bs "send") /\
  gesture_act (ClicksOn [0; 1]) form_doc = (form_doc, [bs "{""listener"":""send""}"], true).
Proof.
  split; [|split; [exists None|]; vm_compute; reflexivity]. intros ev H. unfold form_doc in H.
  inversion H as [? n Hn Hl|? t a ty l kids Hn Hk]; subst.
  - destruct Hn as [<-|[]]. destruct Hl as [Hl|[]]. apply (f_equal fst) in Hl. symmetry. exact Hl.
  - destruct Hn as [Hn|[]]. inversion Hn; subst. inversion Hk as [? n Hm Hl|? t a ty l kids Hm Hk2]; subst.
    + destruct Hm as [<-|[<-|[]]]; destruct Hl.
    + destruct Hm as [Hm|[Hm|[]]]; inversion Hm; subst; inversion Hk2 as [? n Hm2 Hl|? t a ty l kids Hm2 Hk3]; subst; destruct Hm2.
Qed.
(** A chat session: the click on the button is told to the component and the page stays; Enter does nothing. *)
Example C118_example_chat : exists ctx c dom ls out shown,
  main_loop chat_component tt true [(None, WhoAmI 5%N)] = (Looping ctx c dom ls, out) /\
  browse careful_browser out [] = (map erase shown, true) /\
  gesture_act (ClicksOn [0; 1; 0]) shown = (shown, [bs "{""listener"":""initialize_username""}"], false) /\
  gesture_act (Enters [0; 0; 0]) shown = (shown, [], false).
Proof.
  eexists _, _, _, _, _, (map fresh [paint (chat_element (Uninitialized []))]).
  split; [vm_compute; reflexivity|]. repeat split; vm_compute; reflexivity.
Qed.
(** Two pages without forms and links, the second with one more entry. *)
Definition stay_old : element := Element 0 (bs "div") [] [Listener (bs "go") (bs "click")] [Element 1 (bs "p") [] [] [] (Some (bs "one")) None] None None.
Definition stay_new : element := Element 0 (bs "div") [] [Listener (bs "go") (bs "click")] [Element 1 (bs "p") [] [] [] (Some (bs "one")) None; Element 2 (bs "label") [(bs "for", bs "0")] [] [] (Some (bs "two")) None] None None.
Example C118_example_stays : exists os doc,
  Forall known_tags [stay_old; stay_new] /\ updates stay_old [stay_new] [wire os] /\
  browse careful_browser [wire (create_from_scratch stay_old None); wire os] [] = (doc, true) /\
  ~ In (bs "form") (flat_map tags_in [stay_old; stay_new]) /\
  (forall k, In k (flat_map attrs_in [stay_old; stay_new]) -> to_lower (cut k) <> bs "href") /\
  snd (fst (gesture_act (ClicksOn [0; 1]) (map fresh doc))) = [bs "{""listener"":""go""}"].
Proof.
  eexists _, _. split; [repeat constructor; discriminate|]. split; [eapply up_cons; [vm_compute; reflexivity|constructor]|].
  split; [vm_compute; reflexivity|]. split; [intros H; repeat destruct H as [H|H]; try discriminate H; destruct H|].
  split; [intros k [<-|[]]; discriminate|]. vm_compute. reflexivity.
Qed.

Print Assumptions C118_submit_leaves.
Print Assumptions C118_stays_partial.
Print Assumptions C118_chat.
Print Assumptions C118_form_refuted.

(** Every button in a form that says nothing else submits it when clicked, and so leaves the page. *)
Lemma outwards_head p : p <> [] -> exists l, outwards p = p :: l.
Proof.
  induction p as [|j p IH]; [congruence|]. intros _. cbn [outwards]. destruct p as [|j' p']; [now exists []|].
  destruct IH as (l & ->); [discriminate|]. cbn [map app]. eauto.
Qed.
Theorem C118_buttons_leave : forall doc p b f form,
  node_at p doc = Some b -> v_tag b = bs "button" -> v_attr (bs "type") b = None -> v_attr (bs "disabled") b = None -> v_attr (bs "form") b = None ->
  In f (outwards p) -> node_at f doc = Some form -> v_tag form = bs "form" ->
  snd (gesture_act (ClicksOn p) doc) = true.
Proof.
  intros doc p b f form Hb Ht Hty Hd Hf Hin Hform Htf. cbn [gesture_act].
  assert (p <> []) as Hp by (intros ->; discriminate). destruct (outwards_head p Hp) as (l & Ho).
  assert (exists g, nearest is_form p doc = Some g) as (g & Hg).
  { unfold nearest. destruct (find _ (outwards p)) as [g|] eqn:E; [eauto|]. exfalso. apply (List.find_none _ _ E) in Hin. rewrite Hform in Hin. unfold is_form in Hin. rewrite Htf in Hin. discriminate. }
  assert (nearest reacts p doc = Some p) as Hr.
  { unfold nearest. rewrite Ho. cbn [find]. rewrite Hb. unfold reacts. rewrite Ht. reflexivity. }
  assert (activate_at p doc = submit_form g doc) as Ha.
  { unfold activate_at. rewrite Hb. unfold is_link, submit_button, v_has, v_type. rewrite Ht, Hd, Hty. cbn [str_eqb andb orb negb].
    change (str_eqb (bs "button") (bs "a") || str_eqb (bs "button") (bs "area")) with false. change (str_eqb (bs "button") (bs "input")) with false. change (str_eqb (bs "button") (bs "button")) with true.
    change (str_eqb [] (bs "reset")) with false. change (str_eqb [] (bs "button")) with false. cbn [andb orb negb]. unfold form_owner. rewrite Hb, Hf, Hg. reflexivity. }
  unfold click. rewrite Hr, Hb, Ht. change (str_eqb (bs "button") (bs "label")) with false. cbv iota. rewrite Ha. reflexivity.
Qed.
Print Assumptions C118_buttons_leave.
(** Enter does nothing outside input fields. *)
Theorem C118_enter_elsewhere : forall doc p, (forall n, node_at p doc = Some n -> v_tag n <> bs "input") -> gesture_act (Enters p) doc = (doc, [], false).
Proof.
  intros doc p H. cbn [gesture_act]. unfold press_enter. destruct (node_at p doc) as [n|] eqn:E; [|reflexivity]. specialize (H n eq_refl).
  unfold text_field. destruct (str_eqb (v_tag n) (bs "input")) eqn:Ei; [apply str_eqb_eq in Ei; congruence|reflexivity].
Qed.
Print Assumptions C118_enter_elsewhere.
Example C118_buttons_example : snd (gesture_act (ClicksOn [0; 0]) [VElem (bs "form") [] None [] [VElem (bs "button") [] None [] []]]) = true /\
  gesture_act (Enters [0; 0]) [VElem (bs "form") [] None [] [VElem (bs "button") [] None [] []]] = ([VElem (bs "form") [] None [] [VElem (bs "button") [] None [] []]], [], false).
Proof. split; reflexivity. Qed.
