(** The browser, exact forms: C57, C58, C59, C63, C72, C75, C101. *)
From Verif Require InnerHtml.
From Verif Require Import Base HMap Num Json DomModel DomSpec DomProofs DomProofs2 DomProofs3 DomProofs4 DomKeyed DomLocal HtmlModel
  ClientModel ClientSpec BrowserSpec ClientProofs ClientProofs2 BrowserProofs IdProofs ComponentModel JsonSpec JsonProofs ComponentSpec ComponentProofs ComponentProofs2 PropClient PropComponent
  ChatModel ChatSpec ChatProofs ChatProofs2 ChatProofs3 PropChat.
From Verif Require WsModel.
From Coq Require Import Lia.

(* ------------------------------------------------------------------ *)
(** ** C57, exactly: an instruction's arguments arrive as they were sent if and only if the glued ones contain no "+". *)
Theorem C57_arrives_exactly : forall os, exists js, read_message (wire os) = Some js /\
  Forall2 (fun o j => js_el j = op_id o /\ js_ty j = instruction_word (op_instr o) /\
    (received j = arguments (op_instr o) <-> wire_safe (op_instr o))) os js.
Proof.
  intros os. exists (map js_op os). split; [apply read_wire|]. induction os as [|o os IH]; constructor; [|exact IH].
  split; [reflexivity|]. split; [now destruct o as [? []]|apply received_iff].
Qed.
Print Assumptions C57_arrives_exactly.
(** Of an attribute's value the part before the first "+" arrives. *)
Theorem C57_value_cut : forall i k v, plus_free k -> exists j, read_message (wire [Op i (SetAttribute k v)]) = Some [j] /\ js_el j = i /\ received j = [k; cut v].
Proof.
  intros i k v Hk. exists (js_op (Op i (SetAttribute k v))). split; [apply read_wire|]. split; [reflexivity|].
  unfold received. cbn [js_op js_payload js_ty op_instr op_ty op_payload]. change (existsb _ _) with true. cbv iota. now rewrite part0, part1_cut.
Qed.
Print Assumptions C57_value_cut.
Example C57_exact_example : ~ wire_safe (SetAttribute (bs "value") (bs "1+1=2")) /\ wire_safe (SetText (bs "1+1=2")) /\ cut (bs "1+1=2") = bs "1".
Proof. split; [intros [_ H]; apply H; vm_compute; tauto|]. split; [exact Logic.I|reflexivity]. Qed.

(* ------------------------------------------------------------------ *)
(** ** C58, C59 for pages whose attribute values may contain "+": the document is that of the page with the values cut. *)
Theorem C58_first_paint_any_value : forall reparse a,
  every (fun e => hm_wf (el_attrs e)) a -> neat a -> NoDup (ids a) ->
  exists os y, diff a None = Some os /\ on_message reparse (wire os) [] = ([y], true) /\ displays y a.
Proof.
  intros reparse a W C N. destruct (browser_first_paint_cut reparse a (conj W C) N) as (os & Ho & y & V & R). now exists os, y.
Qed.
Print Assumptions C58_first_paint_any_value.
Theorem C59_updates_any_value_partial : forall reparse a b, InnerHtml.standard reparse ->
  every (fun e => hm_wf (el_attrs e)) a -> every (fun e => hm_wf (el_attrs e)) b -> neat a -> neat b ->
  safe_with browser_pair a b ->
  exists os, diff a (Some b) = Some os /\
    forall x, displays x a -> exists y, on_message reparse (wire os) [x] = ([y], true) /\ displays y b.
Proof.
  intros reparse a b Hr Wa Wb Ca Cb Hs. destruct (browser_updates_cut reparse Hr a b Hs (conj Wa Ca) (conj Wb Cb)) as (os & Ho & H).
  exists os. split; [exact Ho|]. intros x V. destruct (H x V) as (y & Vy & R). now exists y.
Qed.
Print Assumptions C59_updates_any_value_partial.

(** The page with all values cut; [displays] is [shows] of that page. *)
Fixpoint cut_tree (e : element) : element :=
  match e with Element i n a l cs t k =>
    Element i n (map (fun kv => (fst kv, cut (snd kv))) a) (map (fun x => Listener (l_name x) (cut (l_event x))) l) (map cut_tree cs) t k end.
Lemma get_cut q (a : hmap str) : get q (map (fun kv => (fst kv, cut (snd kv))) a) = option_map cut (get q a).
Proof. induction a as [|[k v] a IH]; [reflexivity|]. cbn [map fst snd get]. destruct (str_eqb q k); [reflexivity|exact IH]. Qed.
Theorem C58_displays_is_shows_cut : forall x a, displays x a <-> shows x (cut_tree a).
Proof.
  intros x a. revert x. induction a as [i nm a l cs t k IH] using element_ind2. intros x. cbn [cut_tree].
  assert (forall kids, Forall2 displays kids cs <-> Forall2 shows kids (map cut_tree cs)) as Ek.
  { intros kids. clear -IH. revert kids. induction IH as [|c cs Hc _ IHcs]; intros kids; cbn [map]; [split; intros H; inversion H; constructor|].
    split; intros H; inversion H; subst; constructor; try (now apply Hc); now apply IHcs. }
  assert (map (fun x => (cut (l_event x), l_name x)) l = map (fun x => (l_event x, l_name x)) (map (fun x => Listener (l_name x) (cut (l_event x))) l)) as El.
  { rewrite map_map. reflexivity. }
  split; intros H; inversion H as [? ? ? ? ? ? ? m kids G1 G2 G3]; subst.
  - rewrite El. constructor; [exact G1| |now apply Ek]. intros q Hq. now rewrite get_cut, G2.
  - rewrite <- El. constructor; [exact G1| |now apply Ek]. intros q Hq. now rewrite <- get_cut, G2.
Qed.
Print Assumptions C58_displays_is_shows_cut.
Example C58_plus_example : let a := Element 0 (bs "p") [(bs "title", bs "1+1")] [] [] None None in
  neat a /\ cut_tree a = Element 0 (bs "p") [(bs "title", bs "1")] [] [] None None /\
  on_message InnerHtml.plain_browser (wire (create_from_scratch a None)) [] = ([Elem (bs "p") [(bs "id", bs "0"); (bs "title", bs "1")] [] []], true).
Proof.
  cbv zeta. split; [|split; vm_compute; reflexivity]. constructor; [|constructor]. split; [split; reflexivity|]. split; [|constructor].
  constructor; [|constructor]. split; [split; reflexivity|discriminate].
Qed.
(** The usual names: lower-case letters, digits and dashes after a letter. *)
Theorem C58_usual_names : forall b s, (97 <= b2n b <= 122)%N ->
  Forall (fun x => (97 <= b2n x <= 122)%N \/ (48 <= b2n x <= 57)%N \/ x = x2d) s -> clean_name (b :: s).
Proof.
  intros b s Hb Hs. assert (forall x, (97 <= b2n x <= 122)%N \/ (48 <= b2n x <= 57)%N \/ x = x2d -> name_char x = true /\ lower x = x) as G.
  { intros x Hx. destruct x; try (split; reflexivity); exfalso; destruct Hx as [Hx|[Hx|Hx]]; try discriminate; vm_compute in Hx; destruct Hx as [H1 H2]; congruence. }
  split.
  - cbn [valid_name]. apply andb_true_iff. split.
    + destruct b; try reflexivity; exfalso; vm_compute in Hb; destruct Hb as [H1 H2]; congruence.
    + apply forallb_forall. intros x Hx. rewrite Forall_forall in Hs. now apply G, Hs.
  - unfold to_lower. cbn [map]. f_equal; [apply G; auto|]. induction Hs as [|x s Hx _ IH]; [reflexivity|]. cbn [map]. f_equal; [now apply G|exact IH].
Qed.
Print Assumptions C58_usual_names.
Example C58_names_example : clean_name (bs "data-x2") /\ clean_name (bs "h1") /\ ~ clean_name (bs "2h") /\ ~ clean_name (bs "a b").
Proof. repeat split; try reflexivity; intros [H _]; discriminate. Qed.

(* ------------------------------------------------------------------ *)
(** ** C71, exactly, for attributes called id whose values are not ids of other elements of the page: the first message
    paints the page if and only if each of them repeats the element's own id. *)
Lemma every_down (Q : element -> Prop) (p : list nat) : forall e x, every Q e -> at_path p e = Some x -> Q x.
Proof.
  induction p as [|n p IH]; intros e x H E; cbn [at_path] in E.
  - injection E as <-. exact (every_root _ _ H).
  - destruct (nth_error (el_children e) n) as [c|] eqn:En; [|discriminate]. apply every_children in H. rewrite Forall_forall in H. apply nth_error_In in En. exact (IH c x (H c En) E).
Qed.
Theorem C71_id_attributes_exactly : forall reparse a, NoDup (ids a) ->
  every (fun e => hm_wf (el_attrs e) /\ clean_name (el_name e) /\ Forall (fun l => plus_free (l_name l)) (el_listeners e) /\
    Forall (fun kv => clean_name (fst kv) /\ (fst kv = bs "id" -> cut (snd kv) = dec (el_id e) \/ ~ In (cut (snd kv)) (map dec (ids a)))) (el_attrs e)) a ->
  ((exists y, on_message reparse (wire (create_from_scratch a None)) [] = ([y], true) /\ displays y a) <->
   every (fun e => forall v, In (bs "id", v) (el_attrs e) -> cut v = dec (el_id e)) a).
Proof.
  intros reparse a Hn Hw. split.
  - intros (y & Hy & V). unfold on_message in Hy. rewrite read_wire in Hy.
    assert (forall q x kv, at_path q a = Some x -> In kv (el_attrs x) -> to_lower (fst kv) = attr_id -> foreign (ids a) (cut (snd kv)) -> In (cut (snd kv)) (flat_map nids [y])) as G.
    { apply (paint_ids reparse (ids a) a) with (p := None) (d := []); auto.
      - revert Hw. apply every_impl. intros e (_ & _ & _ & F). apply Forall_forall. intros kv Hk. rewrite Forall_forall in F. destruct (F kv Hk) as [C1 C2].
        split; [exact (name_plus_free _ (proj1 C1))|]. rewrite (proj2 C1). intros E. destruct (C2 E) as [X|X]; [now right|now left].
      - apply incl_refl. }
    cbn [flat_map] in G. rewrite app_nil_r, (displays_nids _ _ V) in G.
    assert (forall p e, at_path p a = Some e -> forall v, In (bs "id", v) (el_attrs e) -> cut v = dec (el_id e)) as P.
    { intros p e Hp v Hv. pose proof (every_down _ p _ _ Hw Hp) as (_ & _ & _ & F). rewrite Forall_forall in F. destruct (F _ Hv) as [_ X]. destruct (X eq_refl) as [Y|Y]; [exact Y|].
      exfalso. apply Y. exact (G p e (bs "id", v) Hp Hv eq_refl Y). }
    clear -P. revert P. induction a as [i nm a l cs t k IH] using element_ind2. intros P. constructor.
    + exact (P [] _ eq_refl).
    + apply Forall_forall. intros c Hc. rewrite Forall_forall in IH. apply (IH c Hc). intros p e Hp. apply In_nth_error in Hc as [n Hc]. apply (P (n :: p)). cbn [at_path el_children] in *. now rewrite Hc.
  - intros Ho. destruct (browser_first_paint_cut reparse (strip a)) as (os & Ho' & y & V & R).
    + split; apply strip_every with (2 := Hw); intros [i nm b l cs t k] (W & N1 & N2 & F); cbn [strip el_attrs el_name el_listeners] in *; [now apply remove_wf|].
      split; [exact N1|]. split; [|exact N2]. apply Forall_forall. intros kv Hk. destruct (in_removed _ attr_id _ _ Hk) as [Hk1 Hk2]. rewrite Forall_forall in F. split; [now apply F|now apply Hk2].
    + now rewrite strip_ids.
    + injection Ho' as <-. exists y. split; [|now apply strip_displays]. rewrite <- R. unfold on_message. rewrite !read_wire. apply strip_same.
      * revert Hw. apply every_impl. intros e (_ & _ & _ & F). apply Forall_forall. intros kv Hk _. rewrite Forall_forall in F. apply (F kv Hk).
      * exact Ho.
Qed.
Print Assumptions C71_id_attributes_exactly.
(** Not vacuous: an attribute id="main" spoils the page, id="0" on the element 0 does not. *)
Definition page_with_id (v : str) : element := Element 0 (bs "div") [(bs "id", v); (bs "title", bs "t")] [] [Element 1 (bs "p") [] [] [] (Some (bs "x")) None] None None.
Lemma page_with_id_ok v : cut v = bs "0" \/ ~ In (cut v) [bs "0"; bs "1"] -> every (fun e => hm_wf (el_attrs e) /\ clean_name (el_name e) /\ Forall (fun l => plus_free (l_name l)) (el_listeners e) /\
    Forall (fun kv => clean_name (fst kv) /\ (fst kv = bs "id" -> cut (snd kv) = dec (el_id e) \/ ~ In (cut (snd kv)) (map dec (ids (page_with_id v))))) (el_attrs e)) (page_with_id v).
Proof.
  intros Hv. constructor.
  - cbn [page_with_id el_attrs el_name el_listeners el_id]. split; [constructor; [intros [H|[]]; discriminate|]; constructor; [easy|constructor]|]. split; [split; reflexivity|]. split; [constructor|].
    constructor; [|constructor; [|constructor]]; cbn [fst snd]; (split; [split; reflexivity|]); [intros _; exact Hv|discriminate].
  - constructor; [|constructor]. constructor; [|constructor]. cbn [el_attrs el_name el_listeners]. split; [constructor|]. split; [split; reflexivity|]. split; constructor.
Qed.
Example C71_exact_example : (exists y, on_message InnerHtml.plain_browser (wire (create_from_scratch (page_with_id (bs "0")) None)) [] = ([y], true) /\ displays y (page_with_id (bs "0"))) /\
  ~ (exists y, on_message InnerHtml.plain_browser (wire (create_from_scratch (page_with_id (bs "main")) None)) [] = ([y], true) /\ displays y (page_with_id (bs "main"))).
Proof.
  assert (NoDup [0; 1]%N) as N. { constructor; [intros [H|[]]; discriminate|]. constructor; [easy|constructor]. }
  split.
  - apply C71_id_attributes_exactly; [exact N|apply page_with_id_ok; now left|]. constructor; [intros v [H|[H|[]]]; [injection H as <-; reflexivity|discriminate]|]. constructor; [|constructor]. constructor; [easy|constructor].
  - intros H. apply C71_id_attributes_exactly in H; [|exact N|apply page_with_id_ok; right; intros [H1|[H1|[]]]; discriminate].
    apply every_root in H. specialize (H _ (or_introl eq_refl)). discriminate.
Qed.

(* ------------------------------------------------------------------ *)
(** ** C63 for such pages. *)
Lemma chain_browse_cut reparse doms : InnerHtml.standard reparse -> forall d outs, updates d doms outs ->
  linked (fun a b => tidy a /\ tidy b /\ safe_with browser_pair a b) d doms ->
  forall x, displays x d -> exists y, browse reparse outs [x] = ([y], true) /\ displays y (last doms d).
Proof.
  assert (forall (x : element) l d, last (x :: l) d = last l x) as Hlast.
  { intros x l. revert x. induction l as [|z l IHl]; intros x d0; [reflexivity|]. change (last (x :: z :: l) d0) with (last (z :: l) d0). rewrite (IHl z d0). symmetry. apply IHl. }
  intros Hr. induction doms as [|d1 doms IH]; intros d outs U H x V; inversion U as [|? ? ? os outs' Hd U1]; subst.
  - exists x. auto.
  - destruct H as [(P1 & P2 & Hs) H]. destruct (browser_updates_cut reparse Hr d d1 Hs P1 P2) as (os' & Ho & H1).
    assert (os' = os) as -> by congruence. destruct (H1 x V) as (y & Vy & Ry). destruct (IH _ _ U1 H y Vy) as (z & Rz & Vz).
    exists z. cbn [browse]. rewrite Ry, Rz, Hlast. auto.
Qed.
Theorem C63_browser_in_sync_any_value : forall reparse, InnerHtml.standard reparse ->
  forall D I S E P (C : component D I S E P) data e0 p ms ctx c dom ls out,
  main_loop C data true ((e0, WhoAmI p) :: ms) = (Looping ctx c dom ls, out) ->
  c_render C c = Some (dom, ls) /\
  exists c0 d0 l0 cs doms, c_new C e0 data p = Some c0 /\ c_render C c0 = Some (d0, l0) /\ lives C p c0 ms cs c /\ pages C cs doms /\
    (Forall (fun d => every (fun e => hm_wf (el_attrs e)) d /\ neat d) (d0 :: doms) -> NoDup (ids d0) -> linked (safe_with browser_pair) d0 doms ->
     exists y, browse reparse out [] = ([y], true) /\ displays y dom).
Proof.
  intros reparse Hre D I S E P C data e0 p ms ctx c dom ls out H. apply main_loop_spec in H as (_ & R & c0 & d0 & l0 & cs & doms & outs & H1 & H2 & H3 & H4 & H5 & ->).
  split; [exact R|]. exists c0, d0, l0, cs, doms. repeat split; auto. intros Hg Hnd Hl. inversion Hg as [|? ? G0 Gs]; subst.
  destruct (browser_first_paint_cut reparse d0 G0 Hnd) as (os & Ho & y & V & Hy). injection Ho as <-. cbn [browse]. rewrite Hy.
  assert (linked (fun a b => tidy a /\ tidy b /\ safe_with browser_pair a b) d0 doms) as Hl'.
  { clear -G0 Gs Hl. revert d0 G0 Hl. induction Gs as [|d ds G Gs IH]; intros d0 G0 Hl; [exact Logic.I|]. destruct Hl as [L1 L2]. cbn [linked]. split; [|now apply IH]. split; [exact G0|]. split; [exact G|exact L1]. }
  destruct (chain_browse_cut reparse _ Hre _ _ H5 Hl' y V) as (z & Hz & Vz). rewrite Hz. exists z. split; [reflexivity|].
  pose proof (lives_last _ _ _ _ _ _ H3) as Hc. rewrite Hc in R. now rewrite (pages_last _ _ _ H4 _ _ _ _ _ H2 R).
Qed.
Print Assumptions C63_browser_in_sync_any_value.

(** ** C72 for such pages. *)
Theorem C72_events_arrive_any_value : forall I P (ls : hmap (handler I)) doc dom, displays doc dom -> wired ls dom ->
  forall ev name, listening doc (ev, name) ->
  exists h, get name ls = Some h /\ event_of h = ev /\
  forall value, exists text, js_event ev name value = Some text /\ asks ls (@Ws I P (inl (WsModel.Text text))) (input_for h value).
Proof.
  intros I P ls doc dom Hs Hw. apply C58_displays_is_shows_cut in Hs. apply (C72_events_arrive I P ls doc (cut_tree dom) Hs).
  clear Hs. induction dom as [i nm a l cs t k IH] using element_ind2. pose proof (every_root _ _ Hw) as H1. pose proof (every_children _ _ Hw) as H2. cbn [el_listeners el_children] in *.
  constructor; cbn [cut_tree el_listeners el_children].
  - apply Forall_forall. intros x Hx. apply in_map_iff in Hx as (x0 & <- & Hx). rewrite Forall_forall in H1. destruct (H1 x0 Hx) as (h & Hg & He). exists h. split; [exact Hg|].
    cbn [l_event l_name]. rewrite <- He. now destruct h.
  - apply Forall_forall. intros x Hx. apply in_map_iff in Hx as (x0 & <- & Hx). rewrite Forall_forall in IH, H2. apply IH; [exact Hx|now apply H2].
Qed.
Print Assumptions C72_events_arrive_any_value.

(* ------------------------------------------------------------------ *)
(** ** C75, exactly: whatever has been typed, the chat page in the browser is the page of the component's state with the
    field's value cut at the first "+", it is that very page if and only if the field's value has no "+", and all
    its listeners work. *)
Lemma neat_one i n a l cs t k : clean_nameb n = true -> Forall (fun kv => clean_nameb (fst kv) && negb (str_eqb (fst kv) attr_id) = true) a ->
  forallb (fun l => plus_freeb (l_name l)) l = true -> Forall neat cs -> neat (Element i n a l cs t k).
Proof.
  intros H1 H2 H3 H4. constructor; [|exact H4]. cbn [el_name el_attrs el_listeners]. split; [now apply clean_nameb_ok|]. split.
  - apply Forall_forall. intros kv Hk. rewrite Forall_forall in H2. apply H2 in Hk. apply andb_true_iff in Hk as [K1 K2].
    split; [now apply clean_nameb_ok|]. intros E. apply str_eqb_eq in E. rewrite E in K2. discriminate.
  - apply Forall_forall. intros x Hx. rewrite forallb_forall in H3. apply H3 in Hx. now apply plus_freeb_ok.
Qed.
Ltac neats := repeat first [apply neat_one; [reflexivity| |reflexivity|] | apply Forall_nil | apply Forall_cons | reflexivity].
Lemma chat_neat c : neat (chat_element c).
Proof.
  destruct c as [u|u id ms comp]; cbn [chat_element].
  - unfold uninit_element. neats.
  - unfold init_element. apply neat_one; [reflexivity|constructor|reflexivity|]. apply Forall_cons; [neats|]. generalize 7%N.
    induction ms as [|m ms IH]; intros i; [constructor|]. cbn [row_elements]. apply Forall_cons; [neats|apply IH].
Qed.
(** What is typed in the page's text field. *)
Definition typed (c : chat) : str := match c with Uninitialized u => u | Initialized _ _ _ comp => comp end.
Theorem C75_chat_any_text : forall reparse, InnerHtml.standard reparse ->
  forall e0 p ms ctx c dom ls out, main_loop chat_component tt true ((e0, WhoAmI p) :: ms) = (Looping ctx c dom ls, out) ->
  exists j y, into_element (chat_page c) 0 = Some (dom, j) /\ browse reparse out [] = ([y], true) /\
    shows y (cut_tree dom) /\ (shows y dom <-> ~ In plus (typed c)) /\
    forall ev name, listening y (ev, name) -> exists h, get name (chat_listeners c) = Some h /\ event_of h = ev /\
      forall value, exists text, js_event ev name value = Some text /\ asks (chat_listeners c) (@Ws linput N (inl (WsModel.Text text))) (input_for h value).
Proof.
  intros reparse Hre e0 p ms ctx c dom ls out H.
  destruct (C63_browser_in_sync_any_value reparse Hre _ _ _ _ _ chat_component tt e0 p ms ctx c dom ls out H) as (R & c0 & d0 & l0 & cs & doms & H1 & H2 & H3 & H4 & H5).
  injection H1 as <-. rewrite chat_render in H2. injection H2 as <- <-. rewrite chat_render in R. injection R as <- <-.
  pose proof (chat_pages_eq _ _ H4) as ->.
  destruct H5 as (y & Hy & V).
  - assert (forall c, every (fun e => hm_wf (el_attrs e)) (chat_element c) /\ neat (chat_element c)) as Hc.
    { intros c1. split; [|apply chat_neat]. apply (proper_wf (chat_size c1)). apply chat_proper. lia. }
    constructor; [exact (Hc chat_new)|]. apply Forall_forall. intros d Hd. apply in_map_iff in Hd as (c1 & <- & Hd). apply Hc.
  - apply (numbered_range _ _ _ (proj1 (chat_numbered chat_new))).
  - destruct (chat_lives _ _ _ _ _ H3) as [_ Hl]. specialize (Hl (chat_size c)). assert (chat_size c <= chat_size c + 1)%N as Hc by lia. specialize (Hl Hc).
    clear -Hl. change (chat_element chat_new) with (uninit_element []) in *. revert Hl. generalize (uninit_element []). induction (chat_pages cs) as [|d ds IH]; intros e; [easy|]. intros [(_ & _ & C) D]. split; [exact C|now apply IH].
  - exists (chat_size c), y. split; [apply chat_into|]. split; [exact Hy|]. split; [now apply C58_displays_is_shows_cut|]. split.
    + split.
      * intros Hs. pose proof (both_plain _ _ V Hs) as Hp. clear -Hp.
        assert (forall q e v, at_path q (chat_element c) = Some e -> get (bs "value") (el_attrs e) = Some v -> In (bs "value", v) (el_attrs e) -> plus_free v) as G.
        { intros q e v Hq Hg Hi. pose proof (every_down _ q _ _ Hp Hq) as F. cbn beta in F. rewrite Forall_forall in F. apply (F _ Hi); [exact Hg|discriminate]. }
        destruct c as [u|u id ms comp]; cbn [typed chat_element] in *.
        -- apply (G [0; 0] _ u eq_refl eq_refl). right. right. now left.
        -- apply (G [0; 1; 0] _ comp eq_refl eq_refl). now left.
      * intros Hp. apply (clean_cut (chat_element c)); [|exact V]. apply chat_clean. destruct c; exact Hp.
    + intros ev name L. exact (C72_events_arrive_any_value linput N (chat_listeners c) y (chat_element c) V (chat_wired c) ev name L).
Qed.
Print Assumptions C75_chat_any_text.

(** Not vacuous: "a+b" is typed, the document shows "a". *)
Example C75_plus_example : let ms := [chat_says None (bs "{""listener"":""set_username"",""payload"":{""value"":""a+b""}}")] in
  exists dom ls out y, main_loop chat_component tt true ((None, WhoAmI 9%N) :: ms) = (Looping 9%N (Uninitialized (bs "a+b")) dom ls, out) /\
    browse InnerHtml.plain_browser out [] = ([y], true) /\ cut_tree dom = chat_element (Uninitialized (bs "a")) /\ y <> paint dom.
Proof. cbv zeta. eexists _, _, _, _. split; [vm_compute; reflexivity|]. split; [vm_compute; reflexivity|]. split; [vm_compute; reflexivity|]. vm_compute. discriminate. Qed.

(* ------------------------------------------------------------------ *)
(** ** C101: the browser, instruction by instruction. On a document with distinct ids one instruction does what
    [browser_effect] says and nothing else; where it says nothing, an exception is thrown and the document stays as it is. *)
Theorem C101_one_instruction : forall reparse o doc doc', NoDup (flat_map doc_ids doc) -> head_plain (op_instr o) ->
  (on_message reparse (wire [o]) doc = (doc', true) <-> browser_effect reparse (op_id o) (op_instr o) doc doc').
Proof.
  intros reparse o doc doc' Hn Hp. rewrite <- (exec_exactly reparse o doc doc' Hn Hp). unfold on_message. rewrite read_wire. cbn [map js_run].
  destruct (js_exec reparse (js_op o) doc) as [d|]; split; intros H; congruence.
Qed.
Print Assumptions C101_one_instruction.
(** The names accepted by [browser_effect]. *)
Theorem C101_names : forall s, valid_name s = true <-> xml_name s.
Proof.
  assert (forall (P : byte -> bool) l, (forall b, P b = existsb (byte_eqb b) l || (128 <=? b2n b)%N) -> forall b, P b = true <-> In b l \/ (128 <= b2n b)%N) as G.
  { intros P l H b. rewrite H, orb_true_iff, N.leb_le, existsb_exists. split; (intros [H1|H1]; [left|right; exact H1]).
    - destruct H1 as (x & Hx & E). apply byte_eqb_eq in E as ->. exact Hx.
    - exists b. split; [exact H1|apply byte_eqb_refl]. }
  assert (forall b, name_start b = existsb (byte_eqb b) start_chars || (128 <=? b2n b)%N) as H1 by (intros []; vm_compute; reflexivity).
  assert (forall b, ClientModel.name_char b = existsb (byte_eqb b) (start_chars ++ more_chars) || (128 <=? b2n b)%N) as H2 by (intros []; vm_compute; reflexivity).
  intros s. unfold xml_name. destruct s as [|b r]; cbn [valid_name]; [split; [discriminate|intros (b & r & H & _); discriminate]|].
  rewrite andb_true_iff, (G name_start start_chars H1), forallb_forall. split.
  - intros [Hb Hr]. exists b, r. split; [reflexivity|]. split; [exact Hb|]. apply Forall_forall. intros c Hc. apply Hr in Hc.
    apply (G _ _ H2) in Hc. rewrite in_app_iff in Hc. tauto.
  - intros (b' & r' & [= <- <-] & Hb & Hr). split; [exact Hb|]. intros c Hc. rewrite Forall_forall in Hr. apply Hr in Hc.
    apply (G _ _ H2). rewrite in_app_iff. tauto.
Qed.
Print Assumptions C101_names.
Example C101_example_names : xml_name (bs "data-x") /\ ~ xml_name (bs "9a") /\ ~ xml_name (bs "a b") /\ ~ xml_name [].
Proof. rewrite <- !C101_names. split; [reflexivity|]. repeat split; intros H; vm_compute in H; discriminate H. Qed.
Theorem C101_exception : forall reparse o doc, NoDup (flat_map doc_ids doc) -> head_plain (op_instr o) ->
  (forall doc', ~ browser_effect reparse (op_id o) (op_instr o) doc doc') -> on_message reparse (wire [o]) doc = (doc, false).
Proof.
  intros reparse o doc Hn Hp H. unfold on_message. rewrite read_wire. cbn [map js_run].
  destruct (js_exec reparse (js_op o) doc) as [d|] eqn:E; [|reflexivity]. apply (exec_exactly reparse o doc d Hn Hp) in E. exfalso. exact (H d E).
Qed.
Print Assumptions C101_exception.
(** A message is its instructions one after the other; an exception abandons the rest of the message, not what was done. *)
Theorem C101_in_order : forall reparse os1 os2 doc,
  on_message reparse (wire (os1 ++ os2)) doc =
  match on_message reparse (wire os1) doc with
  | (doc1, true) => on_message reparse (wire os2) doc1
  | (doc1, false) => (doc1, false)
  end.
Proof. intros reparse os1 os2 doc. unfold on_message. rewrite !read_wire, map_app. apply BrowserProofs.run_app. Qed.
Print Assumptions C101_in_order.
(** A text that is not JSON leaves the document alone. *)
Theorem C101_not_json : forall reparse text doc, (forall v, ~ json_text (length text) text v) -> on_message reparse text doc = (doc, false).
Proof.
  intros reparse text doc H. unfold on_message, read_message. destruct (parse_json (length text) text) as [v|] eqn:E; [|reflexivity].
  exfalso. apply (H v). now apply parse_json_iff.
Qed.
Print Assumptions C101_not_json.

(** Not vacuous: a document of two elements; one instruction of each kind of outcome. *)
Definition two_nodes : list node := [Elem (bs "div") [(attr_id, bs "0")] [] [Elem (bs "p") [(attr_id, bs "1")] [] [Text (bs "old")]]].
Example C101_example :
  NoDup (flat_map doc_ids two_nodes) /\
  browser_effect InnerHtml.plain_browser (bs "1") (SetText (bs "new")) two_nodes [Elem (bs "div") [(attr_id, bs "0")] [] [Elem (bs "p") [(attr_id, bs "1")] [] [Text (bs "new")]]] /\
  (forall doc', ~ browser_effect InnerHtml.plain_browser (bs "7") DeleteEl two_nodes doc') /\
  on_message InnerHtml.plain_browser (wire [Op (bs "1") (SetText (bs "new")); Op (bs "7") DeleteEl; Op (bs "1") DeleteEl]) two_nodes =
    ([Elem (bs "div") [(attr_id, bs "0")] [] [Elem (bs "p") [(attr_id, bs "1")] [] [Text (bs "new")]]], false) /\
  (forall v, ~ json_text 2 (bs "[{") v).
Proof.
  assert (NoDup (flat_map doc_ids two_nodes)) as N.
  { change (NoDup [bs "0"; bs "1"]). constructor; [intros [H|[]]; discriminate|]. constructor; [easy|constructor]. }
  split; [exact N|]. split; [|split; [|split]].
  - apply (C101_one_instruction InnerHtml.plain_browser (Op (bs "1") (SetText (bs "new")))); [exact N|exact Logic.I|vm_compute; reflexivity].
  - intros doc' H. apply (C101_one_instruction InnerHtml.plain_browser (Op (bs "7") DeleteEl)) in H; [|exact N|exact Logic.I]. vm_compute in H. discriminate.
  - vm_compute. reflexivity.
  - intros v H. apply parse_json_iff in H. vm_compute in H. discriminate.
Qed.
