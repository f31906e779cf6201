(** C111, C112: text fields and events at the browser. *)
From Verif Require Import Base HMap Num Json DomModel DomSpec DomProofs DomProofs2 ClientModel ClientSpec ClientProofs ClientProofs2 BrowserProofs
  JsonSpec JsonProofs ComponentModel ComponentSpec ComponentProofs UserModel UserProofs UserSpec UserProofs2 UserProofs3 PropClient PropComponent PropBrowser.
From Verif Require InnerHtml WsModel.
From Coq Require Import Lia.

(* ------------------------------------------------------------------ *)
(** ** C111. Text fields *)
(** Typing changes nothing of what the messages from the server do with the document. *)
Theorem C111_typing_changes_nothing_else : forall reparse texts d t p,
  map erase (type_at t p d) = map erase d /\
  let '(d', ok) := v_browse reparse texts d in browse reparse texts (map erase d) = (map erase d', ok).
Proof.
  intros reparse texts d t p. split; [apply erase_type|]. revert d. induction texts as [|x xs IH]; intros d; cbn [v_browse browse]; [reflexivity|].
  pose proof (message_erase reparse x d) as H. destruct (v_message reparse x d) as [d1 ok1]. rewrite H. specialize (IH d1). destruct (v_browse reparse xs d1) as [d2 ok2]. now rewrite IH.
Qed.
Print Assumptions C111_typing_changes_nothing_else.

(** What is typed is the user's: no text from the server, whatever it is, puts anything there. *)
Theorem C111_typed_by_the_user : forall reparse texts d, let '(d', _) := v_browse reparse texts d in
  incl (texts_typed d') (texts_typed d).
Proof.
  intros reparse texts. induction texts as [|x xs IH]; intros d; cbn [v_browse]; [apply incl_refl|]. destruct (v_message reparse x d) as [d1 ok1] eqn:E. specialize (IH d1).
  destruct (v_browse reparse xs d1) as [d2 ok2]. eapply incl_tran; [exact IH|eapply message_texts; exact E].
Qed.
Print Assumptions C111_typed_by_the_user.

(** While the pages grow, what was typed into a field stays, whatever the pages say about the field's value. *)
Theorem C111_typed_text_stays : forall reparse n a doms outs p x t, displays (erase n) a -> updates a doms outs -> linked grown a doms ->
  Forall neat (a :: doms) -> Forall (fun d => NoDup (ids d)) doms -> node_at p [n] = Some x -> is_elem x ->
  let '(d', _) := v_browse reparse outs (type_at t p [n]) in
  exists x', node_at p d' = Some x' /\ v_tag x' = v_tag x /\ v_id x' = v_id x /\ field_value x' = t.
Proof.
  intros reparse n a doms outs p x t D U L Hn Hd Hx He.
  assert (p <> []) as Hp by (intros ->; discriminate).
  pose proof (node_at_type t p [n] x Hx) as H1.
  assert (exists n1, type_at t p [n] = [n1]) as (n1 & E1).
  { destruct p as [|j p]; [congruence|]. cbn [type_at]. destruct j as [|j]; [cbn [update_nth]; eauto|]. destruct p, j; discriminate Hx. }
  rewrite E1 in *. assert (displays (erase n1) a) as D1.
  { pose proof (erase_type t p [n]) as H. rewrite E1 in H. cbn [map] in H. injection H as ->. exact D. }
  assert (is_elem (retyped t x)) as He1 by now destruct x.
  pose proof (page_above n1 a p _ D1 H1 He1) as Ab.
  assert (is_place p [n1]) as P1 by apply (node_at_some _ _ _ H1).
  assert (forall d0, is_place p d0 -> look p d0 = look p [n1] -> let '(d', _) := v_browse reparse outs d0 in is_place p d' /\ look p d' = look p [n1]) as G.
  { clear D1 D. revert a outs U L Hn Hd Ab. induction doms as [|b doms IH]; intros a outs U L Hn Hd Ab d0 Pd Ld; inversion U as [|? ? ? os outs' Ed U']; subst; cbn [v_browse]; [auto|].
    destruct L as [Lg L]. inversion Hn as [|? ? Na Hn']; subst. inversion Hn' as [|? ? Nb Hn'']; subst. inversion Hd as [|? ? Hb Hd']; subst.
    destruct (v_message reparse (wire os) d0) as [d1 ok1] eqn:Em. unfold v_message in Em. rewrite read_wire in Em.
    pose proof (ops_grown a b Lg Na Nb Hb os Ed) as Ho.
    destruct (run_look reparse p Hp os d0 d1 ok1) as [Pd1 Ld1]; [| |exact Em|exact Pd|].
    - apply Forall_forall. intros o Hin. apply (Ho o Hin).
    - intros o v Hin Hv Hab. destruct (Ho o Hin) as (_ & Ht). destruct (Ht v Hv) as (y & Ey & _ & Hy). unfold above in Hab. rewrite Ld in Hab. apply Ab in Hab as (z & Ez & Hz).
      rewrite Ey in Ez. apply dec_inj in Ez as ->. now apply Hy.
    - assert (forall i : str, In (Some i) (above p [n1]) -> exists y, i = dec y /\ In y (parents b)) as Ab'.
      { intros i Hi. destruct (Ab i Hi) as (y & ? & ?). exists y. split; [assumption|]. now apply (grown_parents2 _ _ Lg). }
      specialize (IH b outs' U' L Hn' Hd' Ab' d1 Pd1 ltac:(congruence)). destruct (v_browse reparse outs' d1). exact IH. }
  specialize (G [n1] P1 eq_refl). destruct (v_browse reparse outs [n1]) as [d' ok']. destruct G as [P' L'].
  destruct (look_at p [n1] _ d' L' P' Hp H1) as (x' & Hx' & Hi). exists x'. split; [exact Hx'|]. destruct x as [s|tag at_ ty ls kids]; [destruct He|].
  unfold v_info in Hi. cbn [retyped v_tag v_id v_typed] in *. injection Hi as I1 I2 I3. split; [exact I1|]. split; [exact I2|].
  destruct x' as [s'|tag' at' ty' ls' kids']; [discriminate|]. cbn [v_typed] in I3. subst ty'. reflexivity.
Qed.
Print Assumptions C111_typed_text_stays.

Lemma one_line_unbroken s : unbroken s (one_line s).
Proof.
  induction s as [|b s IH]; cbn [one_line filter]; [constructor|]. fold (one_line s). destruct (byte_eqb b x0a) eqn:E1; [apply byte_eqb_eq in E1; apply UnbrokenBreak; auto|].
  destruct (byte_eqb b x0d) eqn:E2; [apply byte_eqb_eq in E2; apply UnbrokenBreak; auto|]. apply byte_eqb_neq in E1, E2. now apply UnbrokenByte.
Qed.
(** A field nobody has typed into shows the value the page gives it, up to the first "+" and without line breaks. *)
Theorem C111_untouched_fields : forall n a p x, displays (erase n) a -> node_at p [n] = Some x -> is_elem x -> v_typed x = None ->
  exists e es, line a (e :: es) /\ v_id x = Some (dec (el_id e)) /\ v_tag x = Some (el_name e) /\
    match get (bs "value") (el_attrs e) with Some v => unbroken (cut v) (field_value x) | None => field_value x = [] end.
Proof.
  intros n a p x D H He Hu. destruct (page_line n a p x D H He) as (es & Hl & F). destruct (node_at_some _ _ _ H) as [_ Hh].
  destruct F as [|v e vs es Hd F]; [discriminate|]. injection Hh as ->. exists e, es. split; [exact Hl|]. split; [now apply displays_id|]. split; [now apply displays_tag|].
  destruct x as [s|tag at_ ty ls kids]; [destruct He|]. cbn [v_typed] in Hu. subst ty. cbn [field_value].
  rewrite (displays_attr tag at_ None ls kids e (bs "value") Hd) by discriminate. destruct (get (bs "value") (el_attrs e)); [apply one_line_unbroken|reflexivity].
Qed.
Print Assumptions C111_untouched_fields.

(** So a field does not show the value rendered last: a page with one field, painted by the first message; the user types
    any text; the component renders another value; the browser's document is that page, and the field shows what was typed. *)
Definition one_field (v : str) : element := Element 0 (bs "input") [(bs "type", bs "text"); (bs "value", v)] [] [] None None.
Lemma one_field_tidy v : tidy (one_field v).
Proof.
  split; [constructor; [|constructor]; cbn [one_field el_attrs]; constructor; [intros [H|[]]; discriminate|constructor; [easy|constructor]]|].
  constructor; [|constructor]. cbn [one_field el_name el_attrs el_listeners]. split; [split; reflexivity|]. split; [|constructor].
  constructor; [split; [split; reflexivity|discriminate]|constructor; [split; [split; reflexivity|discriminate]|constructor]].
Qed.
Lemma one_field_safe u v : safe_with browser_pair (one_field u) (one_field v).
Proof.
  apply safe_plain.
  - split; [now left|]. split; [now left|now left].
  - now left.
  - auto.
  - constructor.
  - constructor.
Qed.
Theorem C111_rendered_value_shown_refuted : forall reparse, InnerHtml.standard reparse -> forall u v t,
  exists os1 os2 n, diff (one_field u) None = Some os1 /\ diff (one_field u) (Some (one_field v)) = Some os2 /\
    (let '(d1, _) := v_browse reparse [wire os1] [] in
     let '(d2, _) := act (Types [0] t) d1 in
     v_browse reparse [wire os2] d2 = ([n], true)) /\
    displays (erase n) (one_field v) /\ field_value n = t.
Proof.
  intros reparse Hre u v t.
  destruct (browser_first_paint_cut reparse (one_field u) (one_field_tidy u)) as (os1 & E1 & y1 & D1 & R1); [constructor; [easy|constructor]|].
  destruct (browser_updates_cut reparse Hre (one_field u) (one_field v) (one_field_safe u v) (one_field_tidy u) (one_field_tidy v)) as (os2 & E2 & H2).
  destruct (H2 y1 D1) as (y2 & D2 & R2). exists os1, os2.
  pose proof (message_erase reparse (wire os1) []) as M1. cbn [map] in M1. destruct (v_message reparse (wire os1) []) as [d1 k1] eqn:V1. rewrite R1 in M1. injection M1 as M1 <-.
  destruct d1 as [|n1 [|? ?]]; try discriminate. cbn [map] in M1. injection M1 as ->.
  pose proof (C111_typed_text_stays reparse n1 (one_field u) [one_field v] [wire os2] [0] n1 t D1) as S.
  pose proof (message_erase reparse (wire os2) (type_at t [0] [n1])) as M2. rewrite erase_type in M2. cbn [map] in M2. rewrite R2 in M2.
  cbn [v_browse act] in *. rewrite V1. cbv beta iota zeta. destruct (v_message reparse (wire os2) (type_at t [0] [n1])) as [d2 k2]. cbn [andb] in *. injection M2 as M2 <-.
  destruct d2 as [|n2 [|? ?]]; try discriminate. injection M2 as ->. exists n2. split; [exact E1|]. split; [exact E2|]. split; [reflexivity|]. split; [exact D2|].
  destruct S as (x' & Hx & _ & _ & Hv).
  - econstructor; [exact E2|constructor].
  - split; [|exact Logic.I]. unfold one_field. apply (Grown 0 _ _ _ _ _ [] [] []); [constructor|now left].
  - constructor; [apply one_field_tidy|]. constructor; [apply one_field_tidy|constructor].
  - constructor; [|constructor]. constructor; [easy|constructor].
  - reflexivity.
  - destruct n1; [inversion D1|exact Logic.I].
  - cbn in Hx. injection Hx as <-. exact Hv.
Qed.
Print Assumptions C111_rendered_value_shown_refuted.
(** Not vacuous: while someone types into the field of the to-do page, another item arrives. *)
Example C111_example : let a := todo_page [] in let b := todo_page [bs "milk"] in
  exists os1 os2, diff a None = Some os1 /\ diff a (Some b) = Some os2 /\ grown a b /\
    let '(d1, _) := v_browse InnerHtml.plain_browser [wire os1] [] in
    let '(d2, sent) := act (Types [0; 0] (bs "e+gg")) d1 in
    let '(d3, ok) := v_browse InnerHtml.plain_browser [wire os2] d2 in
    sent = [bs "{""listener"":""add"",""payload"":{""value"":""e+gg""}}"] /\ ok = true /\ map erase d3 = [paint b] /\ option_map field_value (node_at [0; 0] d3) = Some (bs "e+gg").
Proof.
  cbv zeta. eexists _, _. split; [vm_compute; reflexivity|]. split; [vm_compute; reflexivity|]. split.
  - unfold todo_page. cbn [rows]. match goal with |- grown (Element _ _ _ _ ?x _ _) (Element _ _ _ _ (?c1 :: ?c2 :: ?m) _ _) => change (c1 :: c2 :: m) with ([c1; c2] ++ m) end. constructor; [|now right].
    constructor; [|constructor; [|constructor]]; apply (Grown _ _ _ _ _ _ [] [] []); constructor; reflexivity.
  - vm_compute. repeat split; reflexivity.
Qed.

(* ------------------------------------------------------------------ *)
(** ** C112. Events go through the elements around their target *)
Lemma line_every P dom es : line dom es -> every P dom -> Forall P es.
Proof.
  induction 1 as [e|e c es Hc Hl IH]; intros He; [constructor; [now apply every_root|constructor]|]. apply Forall_app. split; [|constructor; [now apply every_root|constructor]].
  apply IH. pose proof (every_children _ _ He) as H. rewrite Forall_forall in H. now apply H.
Qed.
(** An event at an element in a browser that shows the page sends one text for each listener for it on the element and on
    the elements around it, from the inside out; each makes the process, while it has these handlers, ask for the input the
    listener's handler makes of the value of the element where the event happened. *)
Theorem C112_every_listener_around : forall I P (ls : hmap (handler I)) n dom p x ev, displays (erase n) dom -> wired ls dom -> node_at p [n] = Some x -> is_elem x ->
  exists e es, line dom (e :: es) /\ v_id x = Some (dec (el_id e)) /\
    Forall2 (fun text l => exists h, get (l_name l) ls = Some h /\ event_of h = ev /\ asks ls (@Ws I P (inl (WsModel.Text text))) (input_for h (field_value x)))
      (sends ev p [n]) (filter (fun l => str_eqb (l_event l) ev) (flat_map el_listeners (e :: es))).
Proof.
  intros I P ls n dom p x ev D W H He. destruct (page_line n dom p x D H He) as (es0 & Hl & F). destruct (node_at_some _ _ _ H) as [_ Hh].
  pose proof (line_every _ _ _ Hl W) as We.
  assert (exists e es, es0 = e :: es /\ v_id x = Some (dec (el_id e))) as (e & es & -> & Hid).
  { inversion F as [E1 E2|v e vs es Hd F' E1 E2]; [rewrite <- E1 in Hh; discriminate|]. rewrite <- E1 in Hh. injection Hh as ->. exists e, es. split; [reflexivity|now apply displays_id]. }
  exists e, es. split; [exact Hl|]. split; [exact Hid|]. unfold sends. rewrite H. clear Hh H Hl D Hid. 
  induction F as [|v e' vs es' Hd F IH]; [constructor|]. inversion We as [|? ? We1 We2]; subst. cbn [flat_map]. rewrite filter_app. apply Forall2_app; [|now apply IH].
  rewrite (displays_listeners v e' Hd). clear IH We2 F Hd. induction (el_listeners e') as [|l lsn IHl]; [constructor|]. inversion We1 as [|? ? (h & Hg & Hev) W2]; subst. cbn [map flat_map filter fst snd].
  assert (cut (l_event l) = l_event l) as -> by (rewrite <- Hev; destruct h; reflexivity).
  destruct (str_eqb (l_event l) ev) eqn:Ee; [|now apply IHl]. apply str_eqb_eq in Ee. subst ev.
  assert (exists text, js_event (l_event l) (l_name l) (field_value x) = Some text /\ asks ls (@Ws I P (inl (WsModel.Text text))) (input_for h (field_value x))) as (text & Hj & Ha).
  { rewrite <- Hev. destruct h as [c|c|f]; cbn [event_of js_event input_for].
    - eexists. split; [reflexivity|]. eapply asks_click; [apply says_iff, client_message_listener|exact Hg].
    - eexists. split; [reflexivity|]. eapply asks_submit; [apply says_iff, client_message_listener|exact Hg].
    - eexists. split; [reflexivity|]. eapply asks_input; [apply says_iff, client_message_value|exact Hg]. }
  rewrite Hj. cbn [app]. constructor; [exists h; auto|now apply IHl].
Qed.
Print Assumptions C112_every_listener_around.

(** With a component whose handlers are the same for all states, one event updates it with all those inputs, in that order. *)
Inductive takes {D I S E P} (C : component D I S E P) (p : P) : S -> list (E * I) -> list S -> Prop :=
| takes_none c : takes C p c [] []
| takes_one c e i c1 is_ cs dom ls dom1 ls1 os : c_update C e c i p = Some c1 -> c_render C c = Some (dom, ls) -> c_render C c1 = Some (dom1, ls1) -> diff dom (Some dom1) = Some os ->
    takes C p c1 is_ cs -> takes C p c ((e, i) :: is_) (c1 :: cs).
Theorem C112_all_handled : forall D I S E P (C : component D I S E P) data e0 p0 ms ctx c dom ls out,
  main_loop C data true ((e0, WhoAmI p0) :: ms) = (Looping ctx c dom ls, out) ->
  (forall c1 dom1 ls1, c_render C c1 = Some (dom1, ls1) -> ls1 = ls) ->
  forall n p x ev, displays (erase n) dom -> wired ls dom -> node_at p [n] = Some x -> is_elem x ->
  exists e es hs, line dom (e :: es) /\ v_id x = Some (dec (el_id e)) /\
    Forall2 (fun l h => get (l_name l) ls = Some h /\ event_of h = ev) (filter (fun l => str_eqb (l_event l) ev) (flat_map el_listeners (e :: es))) hs /\
    forall es' cs, takes C p0 c (combine es' (map (fun h => input_for h (field_value x)) hs)) cs -> length es' = length hs ->
      exists dom' outs', main_loop C data true (((e0, WhoAmI p0) :: ms) ++ combine es' (map (fun t => Ws (inl (WsModel.Text t))) (sends ev p [n])))
        = (Looping p0 (last cs c) dom' ls, out ++ outs') /\ length outs' = length hs /\ c_render C (last cs c) = Some (dom', ls).
Proof.
  intros D I S E P C data e0 p0 ms ctx c dom ls out H Hconst n p x ev Dp W Hx He.
  destruct (C112_every_listener_around I P ls n dom p x ev Dp W Hx He) as (e & es & Hl & Hid & F).
  assert (exists hs, Forall2 (fun l h => get (l_name l) ls = Some h /\ event_of h = ev) (filter (fun l => str_eqb (l_event l) ev) (flat_map el_listeners (e :: es))) hs /\
    Forall2 (fun text h => asks ls (@Ws I P (inl (WsModel.Text text))) (input_for h (field_value x))) (sends ev p [n]) hs) as (hs & F1 & F2).
  { clear -F. induction F as [|text l texts lsn (h & H1 & H2 & H3) F IH]; [exists []; split; constructor|]. destruct IH as (hs & G1 & G2). exists (h :: hs). split; constructor; auto. }
  exists e, es, hs. split; [exact Hl|]. split; [exact Hid|]. split; [exact F1|]. clear F F1 Hl Hid.
  pose proof H as H'. apply main_loop_spec in H' as (-> & R & _). unfold main_loop in *. intros es' cs T Hlen.
  setoid_rewrite run_app. rewrite H. clear H.
  assert (exists dom' outs', run C data true (combine es' (map (fun t => Ws (inl (WsModel.Text t))) (sends ev p [n]))) (Looping p0 c dom ls) = (Looping p0 (last cs c) dom' ls, outs') /\
    length outs' = length hs /\ c_render C (last cs c) = Some (dom', ls)) as (dom' & outs' & Hr & Hl & Hr').
  { clear W Dp Hx He. revert c dom R es' cs T Hlen. induction F2 as [|text h texts hs Ha F2 IH]; intros c dom R [|e1 es'] cs T Hlen; cbn [length] in Hlen; try discriminate.
    - inversion T; subst. exists dom, []. split; [reflexivity|]. split; [reflexivity|exact R].
    - cbn [map combine] in T. inversion T as [|? ? ? c1 ? cs1 dom0 ls0 dom1 ls1 os Hu R0 R1 Hd T' E1 E2 E3]; subst. rewrite R in R0. injection R0 as <- <-. pose proof (Hconst _ _ _ R1) as ->.
      destruct (IH c1 dom1 R1 es' cs1 T' ltac:(lia)) as (dom' & outs' & G1 & G2 & G3).
      exists dom', (wire os :: outs'). cbn [map combine run receive fst snd]. rewrite (iteration_asks _ _ _ _ _ _ _ _ Ha). unfold update_and_diff, perform_diff. rewrite Hu, R1, Hd.
      assert (last (c1 :: cs1) c = last cs1 c1) as -> by (clear; revert c1 c; induction cs1 as [|y ys IHy]; intros c1 c; [reflexivity|]; change (last (c1 :: y :: ys) c) with (last (y :: ys) c); rewrite (IHy y c); symmetry; apply IHy).
      rewrite G1. split; [reflexivity|]. split; [cbn [length]; congruence|exact G3]. }
  exists dom', outs'. rewrite Hr. split; [reflexivity|]. auto.
Qed.
Print Assumptions C112_all_handled.

(** An element with one listener, and one click on it: two updates, since the element around it has a listener as well. *)
Inductive card_input := Delete | Open.
(** A card that can be opened by a click anywhere on it, with a button that deletes it. The state: what was asked for. If
    [fading], a deleted card no longer has the listener for opening. *)
Definition card_page (open_able : bool) : element :=
  Element 0 (bs "div") [] (if open_able then [Listener (bs "open") (bs "click")] else [])
    [Element 1 (bs "button") [] [Listener (bs "delete") (bs "click")] [] (Some (bs "delete")) None] None None.
Definition card (fading : bool) : component unit card_input (list card_input) unit nat := {|
  c_new := fun _ _ _ => Some [];
  c_update := fun _ l i _ => Some (l ++ [i]);
  c_render := fun l => let able := negb (fading && match l with [] => false | _ => true end) in
    Some (card_page able, (bs "delete", OnClick Delete) :: if able then [(bs "open", OnClick Open)] else []) |}.
Definition clicked (fading : bool) : list vnode * list (unit * mail card_input nat) :=
  let '(_, out) := main_loop (card fading) tt true [(tt, WhoAmI 7)] in
  let '(d, _) := v_browse InnerHtml.plain_browser out [] in
  let '(_, sent) := act (Clicks [0; 0]) d in (d, map (fun t => (tt, Ws (inl (WsModel.Text t)))) sent).
Theorem C112_one_click_one_input_refuted : exists n e dom ls out,
  clicked false = ([n], [(tt, Ws (inl (WsModel.Text (bs "{""listener"":""delete""}")))); (tt, Ws (inl (WsModel.Text (bs "{""listener"":""open""}"))))]) /\
  displays (erase n) (card_page true) /\ el_children (card_page true) = [e] /\ length (el_listeners e) = 1 /\
  main_loop (card false) tt true ((tt, WhoAmI 7) :: snd (clicked false)) = (Looping 7 [Delete; Open] dom ls, out).
Proof.
  eexists _, _, _, _, _. split; [vm_compute; reflexivity|]. split; [|split; [reflexivity|]; split; [reflexivity|vm_compute; reflexivity]].
  apply C58_displays_is_shows_cut. change (shows (paint (card_page true)) (card_page true)). apply paint_shows.
Qed.
Print Assumptions C112_one_click_one_input_refuted.
(** Nor are all listeners that the event reached in the browser handled: the handlers are looked up when the texts arrive,
    and the update made by the first may have taken away the second. *)
Theorem C112_every_listener_handled_refuted : exists n dom ls out,
  clicked true = ([n], [(tt, Ws (inl (WsModel.Text (bs "{""listener"":""delete""}")))); (tt, Ws (inl (WsModel.Text (bs "{""listener"":""open""}"))))]) /\
  displays (erase n) (card_page true) /\
  main_loop (card true) tt true ((tt, WhoAmI 7) :: snd (clicked true)) = (Looping 7 [Delete] dom ls, out).
Proof.
  eexists _, _, _, _. split; [vm_compute; reflexivity|]. split; [|vm_compute; reflexivity].
  apply C58_displays_is_shows_cut. change (shows (paint (card_page true)) (card_page true)). apply paint_shows.
Qed.
Print Assumptions C112_every_listener_handled_refuted.
(** Not vacuous: the card without fading meets the hypotheses of C112_all_handled at the button. *)
Example C112_example : exists n dom ls out, clicked false = ([n], snd (clicked false)) /\ main_loop (card false) tt true [(tt, WhoAmI 7)] = (Looping 7 [] dom ls, out) /\
  displays (erase n) dom /\ wired ls dom /\ (forall c1 dom1 ls1, c_render (card false) c1 = Some (dom1, ls1) -> ls1 = ls) /\
  (exists x, node_at [0; 0] [n] = Some x /\ is_elem x) /\ takes (card false) 7 [] [(tt, Delete); (tt, Open)] [[Delete]; [Delete; Open]].
Proof.
  eexists _, _, _, _. split; [vm_compute; reflexivity|]. split; [vm_compute; reflexivity|]. split.
  { apply C58_displays_is_shows_cut. change (shows (paint (card_page true)) (card_page true)). apply paint_shows. }
  split. { constructor; [constructor; [exists (OnClick Open); split; reflexivity|constructor]|]. constructor; [|constructor]. constructor; [constructor; [exists (OnClick Delete); split; reflexivity|constructor]|constructor]. }
  split. { intros c1 dom1 ls1 [= _ <-]. reflexivity. }
  split. { eexists. split; [vm_compute; reflexivity|exact Logic.I]. }
  repeat (econstructor; try reflexivity).
Qed.

(** ** Typing *)
Lemma nth_update j f : forall ns k, nth_error (update_nth j f ns) k = if Nat.eqb j k then option_map f (nth_error ns k) else nth_error ns k.
Proof.
  induction j as [|j IH]; intros [|n ns] [|k]; cbn [update_nth nth_error Nat.eqb]; try reflexivity.
  - now destruct (Nat.eqb j k).
  - apply IH.
Qed.
(** Typing [t] at [p] puts [t] there and changes nothing anywhere else. *)
Theorem C111_typing_exactly : forall t p doc q,
  match node_at q doc, node_at q (type_at t p doc) with
  | None, None => True
  | Some (VText s), Some (VText s') => s' = s
  | Some (VElem tag a ty l kids), Some (VElem tag' a' ty' l' kids') =>
      tag' = tag /\ a' = a /\ l' = l /\ length kids' = length kids /\ (q = p -> ty' = Some t) /\ (q <> p -> ty' = ty)
  | _, _ => False
  end.
Proof.
  assert (forall j f ns, length (update_nth j f ns) = length ns) as Len.
  { induction j as [|j IH]; intros f [|n ns]; cbn [update_nth length]; auto. }
  assert (forall t p ns, length (type_at t p ns) = length ns) as Lt by (intros t [|j p] ns; [reflexivity|apply Len]).
  assert (forall doc q, match node_at q doc, node_at q doc with
    | None, None => True
    | Some (VText s), Some (VText s') => s' = s
    | Some (VElem tag a ty l kids), Some (VElem tag' a' ty' l' kids') => tag' = tag /\ a' = a /\ l' = l /\ length kids' = length kids /\ ty' = ty
    | _, _ => False end) as Same.
  { intros doc q. destruct (node_at q doc) as [[s|tag a ty l kids]|]; repeat split. }
  intros t p. induction p as [|j p IH]; intros doc q.
  - cbn [type_at]. specialize (Same doc q). destruct (node_at q doc) as [[s|tag a ty l kids]|] eqn:E; [exact Same| |exact I]. destruct q; [discriminate|]. repeat split; congruence.
  - destruct q as [|k q]; [exact I|]. cbn [type_at]. set (f := fun n : vnode => _).
    assert (forall ns, node_at (k :: q) ns = match nth_error ns k with
      | Some n => match q with [] => Some n | _ => match n with VElem _ _ _ _ kids => node_at q kids | VText _ => None end end | None => None end) as NA.
    { intros ns. cbn [node_at]. destruct (nth_error ns k) as [[s|tag a ty l kids]|]; destruct q as [|k' [|k'' q]]; try reflexivity. }
    destruct (Nat.eqb_spec j k) as [<-|Hne].
    + rewrite !NA, nth_update, Nat.eqb_refl. destruct (nth_error doc j) as [n|]; cbn [option_map]; [|exact I].
      destruct q as [|k' q].
      * destruct n as [s|tag a ty l kids]; cbn [f]; [reflexivity|]. destruct p as [|j' p]; cbn [f]; repeat split; congruence.
      * destruct n as [s|tag a ty l kids]; unfold f; [exact I|]. destruct p as [|j' p].
        -- specialize (Same kids (k' :: q)). destruct (node_at (k' :: q) kids) as [[s|tag1 a1 ty1 l1 kids1]|]; [exact Same| |exact I]. repeat split; congruence.
        -- specialize (IH kids (k' :: q)). destruct (node_at (k' :: q) kids) as [[s|tag1 a1 ty1 l1 kids1]|];
             destruct (node_at (k' :: q) (type_at t (j' :: p) kids)) as [[s2|tag2 a2 ty2 l2 kids2]|]; try exact IH.
           destruct IH as (-> & -> & -> & Hl & H1 & H2). repeat split; try assumption; intros H; [apply H1|apply H2]; congruence.
    + assert (node_at (k :: q) (update_nth j f doc) = node_at (k :: q) doc) as ->.
      { rewrite !NA, nth_update. destruct (Nat.eqb_spec j k); [contradiction|reflexivity]. }
      specialize (Same doc (k :: q)). destruct (node_at (k :: q) doc) as [[s|tag a ty l kids]|]; [exact Same| |exact I]. repeat split; congruence.
Qed.
Print Assumptions C111_typing_exactly.
Example C111_typing_example :
  let doc := [VElem (bs "form") [] None [] [VElem (bs "input") [] None [] []; VElem (bs "input") [] (Some (bs "old")) [] []]] in
  type_at (bs "new") [0; 0] doc = [VElem (bs "form") [] None [] [VElem (bs "input") [] (Some (bs "new")) [] []; VElem (bs "input") [] (Some (bs "old")) [] []]].
Proof. reflexivity. Qed.
