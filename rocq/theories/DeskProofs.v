(** The two pages of the chat example in the browser, with what is typed. *)
From Verif Require Import Base HMap Num Json DomModel DomSpec DomProofs DomProofs2 ClientModel ClientSpec ClientProofs ClientProofs2 BrowserProofs
  ComponentModel JsonSpec JsonProofs ComponentSpec ComponentProofs ChatModel ChatSpec ChatProofs2 UserModel UserProofs UserSpec UserProofs2 UserProofs3 DeskSpec.
From Verif Require WsModel.
From Coq Require Import Lia.

(** No fields and no listeners here. *)
Inductive dull : vnode -> Prop :=
| DullText s : dull (VText s)
| DullElem t a ty kids : t <> bs "input" -> Forall dull kids -> dull (VElem t a ty [] kids).
Definition dull_page : element -> Prop := every (fun e => el_name e <> bs "input" /\ el_listeners e = []).
Lemma map_erase_cons vk n ns : n :: ns = map erase vk -> exists v vs, vk = v :: vs /\ n = erase v /\ ns = map erase vs.
Proof. destruct vk as [|v vs]; [discriminate|]. intros [= -> ->]. eauto. Qed.
Lemma erase_elem v t a l kids : erase v = Elem t a l kids -> exists ty vk, v = VElem t a ty l vk /\ kids = map erase vk.
Proof. destruct v as [s|t' a' ty' l' vk]; [discriminate|]. intros [= -> -> -> <-]. eauto. Qed.

(** Taking an element apart that shows one of the page, down to its children. *)
Lemma displays_open_text v i n a l cs t k : displays (erase v) (Element i n a l cs t k) -> exists m ty tk vk, v = VElem n m ty (map (fun x => (cut (l_event x), l_name x)) l) (tk ++ vk) /\
  get attr_id m = Some (dec i) /\ (forall q, q <> attr_id -> get q m = option_map cut (get q a)) /\ map erase tk = text_nodes (text_of t) /\ Forall2 (fun v e => displays (erase v) e) vk cs.
Proof.
  intros D. inversion D as [? ? ? ? ? ? ? m kids H1 H2 F E1 E2]; subst. symmetry in E1. apply erase_elem in E1 as (ty & vk & -> & Hk). symmetry in Hk. apply map_eq_app in Hk as (tk & vk' & -> & Ht & Hk).
  exists m, ty, tk, vk'. repeat split; auto.
  subst kids. clear -F. remember (map erase vk') as kids eqn:Ek. revert vk' Ek. induction F as [|x c kids cs Hx F IH]; intros vk Ek.
  - symmetry in Ek. apply map_eq_nil in Ek as ->. constructor.
  - apply map_erase_cons in Ek as (v & vs & -> & -> & Ek). constructor; [exact Hx|now apply IH].
Qed.
Lemma displays_open v i n a l cs k : displays (erase v) (Element i n a l cs None k) -> exists m ty vk, v = VElem n m ty (map (fun x => (cut (l_event x), l_name x)) l) vk /\
  get attr_id m = Some (dec i) /\ (forall q, q <> attr_id -> get q m = option_map cut (get q a)) /\ Forall2 (fun v e => displays (erase v) e) vk cs.
Proof. intros D. apply displays_open_text in D as (m & ty & tk & vk & -> & H1 & H2 & Ht & F). cbn in Ht. apply map_eq_nil in Ht as ->. exists m, ty, vk. auto. Qed.
Lemma displays_dull e : dull_page e -> forall n, displays (erase n) e -> dull n.
Proof.
  induction e as [i nm a l cs t k IH] using element_ind2. intros Hd n D. pose proof (every_root _ _ Hd) as [Hn Hl]. pose proof (every_children _ _ Hd) as Hc. cbn [el_name el_listeners el_children] in *. subst l.
  apply displays_open_text in D as (m & ty & tk & vk & -> & _ & _ & Ht & F). cbn [map]. constructor; [exact Hn|]. apply Forall_app. split.
  - unfold text_nodes in Ht. destruct (text_of t); [apply map_eq_nil in Ht as ->; constructor|]. destruct tk as [|x [|y tk]]; try discriminate. destruct x; [|discriminate]. constructor; [constructor|constructor].
  - clear -F IH Hc. induction F as [|x c kids cs Hx F IHF]; [constructor|]. inversion IH; subst. inversion Hc; subst. constructor; auto.
Qed.
Lemma dull_way p : forall ns, Forall dull ns -> Forall (fun x => v_listeners x = [] /\ forall a ty l kids, x <> VElem (bs "input") a ty l kids) (on_the_way p ns).
Proof.
  induction p as [|j p IH]; intros ns H; [constructor|]. rewrite way_cons. destruct (nth_error ns j) as [n|] eqn:E; [|constructor].
  pose proof (nth_error_In _ _ E) as Hi. rewrite Forall_forall in H. specialize (H n Hi). apply Forall_app. destruct H as [s|t a ty kids Ht Hk]; cbn [v_kids].
  - split; [destruct p; cbn; [constructor|destruct n; constructor]|]. constructor; [|constructor]. split; [reflexivity|discriminate].
  - split; [now apply IH|]. constructor; [|constructor]. split; [reflexivity|]. intros a' ty' l' kids' Hx. injection Hx as Hx. congruence.
Qed.
Lemma dull_shown name ns : Forall dull ns -> flat_map (shown_by name) ns = [].
Proof.
  assert (forall n, dull n -> shown_by name n = []) as H.
  { induction n as [s|t a ty l kids IH] using vnode_ind2; intros H; [reflexivity|]. inversion H; subst. cbn [shown_by existsb app]. clear H. induction IH as [|k kids Hk _ IH]; [reflexivity|].
    match goal with F : Forall dull _ |- _ => inversion F; subst end. cbn [flat_map]. rewrite Hk, IH; auto. }
  induction 1 as [|n ns Hn _ IH]; [reflexivity|]. cbn [flat_map]. now rewrite H, IH.
Qed.
Lemma rows_dull ms : forall i, Forall dull_page (row_elements i ms).
Proof.
  induction ms as [|m ms IH]; intros i; [constructor|]. cbn [row_elements]. constructor; [|apply IH].
  repeat first [apply Forall_nil|apply Forall_cons|apply Every; cbn [el_name el_listeners el_children]]; (split; [discriminate|reflexivity]).
Qed.
Definition on_init (n : vnode) (m4 : hmap str) (t4 : option str) : Prop :=
  exists m0 t0 m1 t1 pn m3 t3 m5 t5 m6 t6 rows,
    n = VElem (bs "div") m0 t0 [] (VElem (bs "div") m1 t1 [] [pn;
          VElem (bs "div") m3 t3 [] [VElem (bs "input") m4 t4 [(bs "input", bs "update_message_contents")] []];
          VElem (bs "div") m5 t5 [] [VElem (bs "input") m6 t6 [(bs "click", bs "submit_message")] []]] :: rows) /\
    dull pn /\ Forall dull rows /\ get (bs "type") m4 = Some (bs "text") /\ get (bs "type") m6 = Some (bs "submit").
Definition on_uninit (n : vnode) (m2 : hmap str) (t2 : option str) : Prop :=
  exists m0 t0 m1 t1 m3 t3 m4 t4,
    n = VElem (bs "div") m0 t0 [] [VElem (bs "div") m1 t1 [] [VElem (bs "input") m2 t2 [(bs "input", bs "set_username")] []];
          VElem (bs "div") m3 t3 [] [VElem (bs "input") m4 t4 [(bs "click", bs "initialize_username")] []]] /\
    get (bs "type") m2 = Some (bs "text") /\ get (bs "type") m4 = Some (bs "submit").
Ltac open_list H := let v := fresh "v" in let vs := fresh "vs" in let D := fresh "D" in let F := fresh "F" in
  inversion H as [|v ? vs ? D F]; subst; clear H.
Lemma init_shape n u id ms comp : displays (erase n) (init_element u id ms comp) -> exists m4 t4, on_init n m4 t4 /\ get attr_id m4 = Some (bs "4") /\ get (bs "value") m4 = Some (cut comp).
Proof.
  unfold init_element. intros D. apply displays_open in D as (m0 & t0 & k0 & -> & _ & _ & F0). inversion F0 as [|v1 ? rows ? D1 FR]; subst. apply displays_open in D1 as (m1 & t1 & k1 & -> & _ & _ & F1).
  inversion F1 as [|pn ? ? ? Dp F2]; subst. inversion F2 as [|v3 ? ? ? D3 F3]; subst. inversion F3 as [|v5 ? ? ? D5 F4]; subst. inversion F4; subst.
  apply displays_open in D3 as (m3 & t3 & k3 & -> & _ & _ & G3). inversion G3 as [|v4 ? ? ? D4 G3']; subst. inversion G3'; subst. apply displays_open in D4 as (m4 & t4 & k4 & -> & I4 & A4 & G4). inversion G4; subst.
  apply displays_open in D5 as (m5 & t5 & k5 & -> & _ & _ & G5). inversion G5 as [|v6 ? ? ? D6 G5']; subst. inversion G5'; subst. apply displays_open in D6 as (m6 & t6 & k6 & -> & I6 & A6 & G6). inversion G6; subst.
  exists m4, t4. split; [|split; [exact I4|rewrite A4 by discriminate; reflexivity]].
  exists m0, t0, m1, t1, pn, m3, t3, m5, t5, m6, t6, rows. split; [reflexivity|]. split; [|split; [|split; [rewrite A4 by discriminate; reflexivity|rewrite A6 by discriminate; reflexivity]]].
  - eapply displays_dull; [|exact Dp]. constructor; [split; [discriminate|reflexivity]|constructor].
  - clear -FR. pose proof (rows_dull ms 7) as H. induction FR as [|v e vs es D F IH]; [constructor|]. inversion H; subst. constructor; [eapply displays_dull; eauto|auto].
Qed.
Lemma uninit_shape n u : displays (erase n) (uninit_element u) -> exists m2 t2, on_uninit n m2 t2 /\ get attr_id m2 = Some (bs "2") /\ get (bs "value") m2 = Some (cut u).
Proof.
  unfold uninit_element. intros D. apply displays_open in D as (m0 & t0 & k0 & -> & _ & _ & F0). inversion F0 as [|v1 ? rows ? D1 FR]; subst. inversion FR as [|v3 ? ? ? D3 FR']; subst. inversion FR'; subst.
  apply displays_open in D1 as (m1 & t1 & k1 & -> & _ & _ & F1). inversion F1 as [|v2 ? ? ? D2 F2]; subst. inversion F2; subst. apply displays_open in D2 as (m2 & t2 & k2 & -> & I2 & A2 & G2). inversion G2; subst.
  apply displays_open in D3 as (m3 & t3 & k3 & -> & _ & _ & F3). inversion F3 as [|v4 ? ? ? D4 F4]; subst. inversion F4; subst. apply displays_open in D4 as (m4 & t4 & k4 & -> & I4 & A4 & G4). inversion G4; subst.
  exists m2, t2. split; [|split; [exact I2|rewrite A2 by discriminate; reflexivity]].
  exists m0, t0, m1, t1, m3, t3, m4, t4. split; [reflexivity|]. split; [rewrite A2 by discriminate; reflexivity|rewrite A4 by discriminate; reflexivity].
Qed.

(* ------------------------------------------------------------------ *)
(** ** The texts a user of the chat sends *)
Inductive utext := UName (t : str) | UJoin | UMessage (t : str) | USend.
Definition input_text (name value : str) : str := print_json (JObj [field (bs "listener") name; (bs "payload", JObj [field (bs "value") value])]).
Definition click_text (name : str) : str := print_json (JObj [field (bs "listener") name]).
Definition u_text (u : utext) : str :=
  match u with
  | UName t => input_text (bs "set_username") t | UJoin => click_text (bs "initialize_username")
  | UMessage t => input_text (bs "update_message_contents") t | USend => click_text (bs "submit_message")
  end.
Definition field_of (m : hmap str) (t : option str) : str := match t with Some t => t | None => match get (bs "value") m with Some v => one_line v | None => [] end end.
Lemma field_of_value tag m t l kids : field_value (VElem tag m t l kids) = field_of m t.
Proof. destruct t; reflexivity. Qed.

Definition emit (ev value : str) (x : vnode) : list str :=
  flat_map (fun l => if str_eqb (fst l) ev then match js_event (fst l) (snd l) value with Some t => [t] | None => [] end else []) (v_listeners x).
Lemma sends_eq ev p d x : node_at p d = Some x -> sends ev p d = flat_map (emit ev (field_value x)) (on_the_way p d).
Proof. intros H. unfold sends. now rewrite H. Qed.
Lemma emit_dull ev value xs : Forall (fun x => v_listeners x = [] /\ forall a ty l kids, x <> VElem (bs "input") a ty l kids) xs -> flat_map (emit ev value) xs = [].
Proof. induction 1 as [|x xs [Hx _] _ IH]; [reflexivity|]. cbn [flat_map]. unfold emit at 1. now rewrite Hx, IH. Qed.
(** In a dull part of the page nothing can be typed, and nothing listens. *)
Lemma dull_at p ns x : Forall dull ns -> node_at p ns = Some x -> v_listeners x = [] /\ forall a ty l kids, x <> VElem (bs "input") a ty l kids.
Proof.
  intros H Hx. destruct (node_at_some _ _ _ Hx) as [_ Hh]. pose proof (dull_way p ns H) as F. destruct (on_the_way p ns); [discriminate|]. injection Hh as ->. now inversion F.
Qed.
Lemma node_at_cons j p ns n : p <> [] -> nth_error ns j = Some n -> node_at (j :: p) ns = node_at p (v_kids n).
Proof. intros Hp E. destruct p as [|k p]; [congruence|]. cbn [node_at]. rewrite E. destruct n; [|reflexivity]. cbn [v_kids]. destruct p, k; reflexivity. Qed.

(** What a place on the first page can be. *)
Lemma uninit_places n m2 t2 q x : on_uninit n m2 t2 -> node_at q [n] = Some x -> 
  (q = [0; 0; 0] /\ x = VElem (bs "input") m2 t2 [(bs "input", bs "set_username")] []) \/
  (exists m4 t4, q = [0; 1; 0] /\ x = VElem (bs "input") m4 t4 [(bs "click", bs "initialize_username")] [] /\ get (bs "type") m4 = Some (bs "submit")) \/
  (v_listeners x = [] /\ (forall a ty l kids, x <> VElem (bs "input") a ty l kids) /\ flat_map v_listeners (on_the_way q [n]) = []).
Proof.
  intros (m0 & t0 & m1 & t1 & m3 & t3 & m4 & t4 & -> & T2 & T4) H.
  destruct q as [|j q]; [discriminate|]. destruct j as [|j]; [|destruct j, q; discriminate].
  destruct q as [|j q]; [injection H as <-; right; right; split; [reflexivity|split; [discriminate|reflexivity]]|].
  destruct j as [|[|j]]; [| |destruct j, q; discriminate].
  - destruct q as [|j q]; [injection H as <-; right; right; split; [reflexivity|split; [discriminate|reflexivity]]|].
    destruct j as [|j]; [|destruct j, q; discriminate]. destruct q as [|j q]; [|destruct j, q; discriminate]. injection H as <-. left. auto.
  - destruct q as [|j q]; [injection H as <-; right; right; split; [reflexivity|split; [discriminate|reflexivity]]|].
    destruct j as [|j]; [|destruct j, q; discriminate]. destruct q as [|j q]; [|destruct j, q; discriminate]. injection H as <-. right. left. exists m4, t4. auto.
Qed.
Lemma dull_listeners xs : Forall (fun x => v_listeners x = [] /\ forall a ty l kids, x <> VElem (bs "input") a ty l kids) xs -> flat_map v_listeners xs = [].
Proof. induction 1 as [|x xs [Hx _] _ IH]; [reflexivity|]. cbn [flat_map]. now rewrite Hx, IH. Qed.
Lemma init_places n m4 t4 q x : on_init n m4 t4 -> node_at q [n] = Some x -> 
  (q = [0; 0; 1; 0] /\ x = VElem (bs "input") m4 t4 [(bs "input", bs "update_message_contents")] []) \/
  (exists m6 t6, q = [0; 0; 2; 0] /\ x = VElem (bs "input") m6 t6 [(bs "click", bs "submit_message")] [] /\ get (bs "type") m6 = Some (bs "submit")) \/
  (v_listeners x = [] /\ (forall a ty l kids, x <> VElem (bs "input") a ty l kids) /\ flat_map v_listeners (on_the_way q [n]) = []).
Proof.
  intros (m0 & t0 & m1 & t1 & pn & m3 & t3 & m5 & t5 & m6 & t6 & rows & -> & Dp & Dr & T4 & T6) H.
  destruct q as [|j q]; [discriminate|]. destruct j as [|j]; [|destruct j, q; discriminate].
  destruct q as [|j q]; [injection H as <-; right; right; split; [reflexivity|split; [discriminate|reflexivity]]|].
  destruct j as [|j].
  - destruct q as [|j q]; [injection H as <-; right; right; split; [reflexivity|split; [discriminate|reflexivity]]|].
    destruct j as [|[|[|j]]]; [| | |destruct j, q; discriminate].
    + right. right. assert (node_at (0 :: q) [pn] = Some x) as H' by (cbn [node_at nth_error] in *; destruct q; exact H).
      destruct (dull_at _ [pn] x ltac:(repeat constructor; exact Dp) H') as [L1 L2]. split; [exact L1|]. split; [exact L2|].
      rewrite way_cons. cbn [nth_error v_kids]. rewrite flat_map_app, way_cons. cbn [nth_error v_kids]. rewrite flat_map_app.
      assert (on_the_way (0 :: q) [pn; VElem (bs "div") m3 t3 [] [VElem (bs "input") m4 t4 [(bs "input", bs "update_message_contents")] []];
          VElem (bs "div") m5 t5 [] [VElem (bs "input") m6 t6 [(bs "click", bs "submit_message")] []]] = on_the_way (0 :: q) [pn]) as -> by reflexivity.
      rewrite (dull_listeners _ (dull_way (0 :: q) [pn] ltac:(repeat constructor; exact Dp))). reflexivity.
    + destruct q as [|j q]; [injection H as <-; right; right; split; [reflexivity|split; [discriminate|reflexivity]]|].
      destruct j as [|j]; [|destruct j, q; discriminate]. destruct q as [|j q]; [|destruct j, q; discriminate]. injection H as <-. left. auto.
    + destruct q as [|j q]; [injection H as <-; right; right; split; [reflexivity|split; [discriminate|reflexivity]]|].
      destruct j as [|j]; [|destruct j, q; discriminate]. destruct q as [|j q]; [|destruct j, q; discriminate]. injection H as <-. right. left. exists m6, t6. auto.
  - right. right. assert (node_at (j :: q) rows = Some x) as H' by (cbn [node_at nth_error] in *; destruct q; exact H).
    destruct (dull_at _ rows x Dr H') as [L1 L2]. split; [exact L1|]. split; [exact L2|].
    rewrite way_cons. cbn [nth_error v_kids]. rewrite flat_map_app.
    match goal with |- flat_map v_listeners (on_the_way (S j :: q) (?a :: rows)) ++ _ = _ => assert (on_the_way (S j :: q) (a :: rows) = on_the_way (j :: q) rows) as -> by reflexivity end.
    rewrite (dull_listeners _ (dull_way _ rows Dr)). reflexivity.
Qed.
Lemma emit_none ev value xs : flat_map v_listeners xs = [] -> flat_map (emit ev value) xs = [].
Proof. induction xs as [|x xs IH]; [reflexivity|]. cbn [flat_map]. intros H. apply app_eq_nil in H as [H1 H2]. unfold emit at 1. rewrite H1, IH by exact H2. reflexivity. Qed.

Lemma uninit_type n m2 t2 q text : on_uninit n m2 t2 -> get attr_id m2 = Some (bs "2") -> text_field q [n] ->
  exists n', act (Types q text) [n] = ([n'], [u_text (UName text)]) /\ on_uninit n' m2 (Some text) /\ q = [0; 0; 0] /\
    incl (ids_typed [n']) (Some (bs "2") :: ids_typed [n]).
Proof.
  intros H I2 (a & ty & l & kids & Hq & Ht). destruct (uninit_places _ _ _ _ _ H Hq) as [[-> E]|[(m4 & t4 & -> & E & T)|(_ & E & _)]].
  - destruct H as (m0 & t0 & m1 & t1 & m3 & t3 & m4 & t4 & -> & T2 & T4). eexists. split; [reflexivity|]. split; [|split; [reflexivity|]].
    + exists m0, t0, m1, t1, m3, t3, m4, t4. auto.
    + unfold ids_typed. cbn [type_at update_nth flat_map tm app]. rewrite I2, !app_nil_r. intros i Hi. cbn [In]. rewrite !in_app_iff in *. cbn [In] in Hi. intuition.
  - injection E as -> -> -> ->. rewrite T in Ht. discriminate.
  - exfalso. exact (E _ _ _ _ eq_refl).
Qed.
Lemma init_type n m4 t4 q text : on_init n m4 t4 -> text_field q [n] ->
  exists n', act (Types q text) [n] = ([n'], [u_text (UMessage text)]) /\ on_init n' m4 (Some text) /\ q = [0; 0; 1; 0].
Proof.
  intros H (a & ty & l & kids & Hq & Ht). destruct (init_places _ _ _ _ _ H Hq) as [[-> E]|[(m6 & t6 & -> & E & T)|(_ & E & _)]].
  - destruct H as (m0 & t0 & m1 & t1 & pn & m3 & t3 & m5 & t5 & m6 & t6 & rows & -> & Dp & Dr & T4 & T6). eexists. split; [reflexivity|]. split; [|reflexivity].
    exists m0, t0, m1, t1, pn, m3, t3, m5, t5, m6, t6, rows. auto.
  - injection E as -> -> -> ->. rewrite T in Ht. discriminate.
  - exfalso. exact (E _ _ _ _ eq_refl).
Qed.
Lemma no_listens name x : v_listeners x = [] -> listens name x = false.
Proof. unfold listens. now intros ->. Qed.
Lemma uninit_click n m2 t2 q x : on_uninit n m2 t2 -> node_at q [n] = Some x ->
  listens (bs "submit_message") x = false /\ act (Clicks q) [n] = ([n], if listens (bs "initialize_username") x then [u_text UJoin] else []).
Proof.
  intros H Hq. cbn [act]. destruct (uninit_places _ _ _ _ _ H Hq) as [[-> ->]|[(m4 & t4 & -> & -> & T)|(E1 & _ & E2)]].
  - split; [reflexivity|]. destruct H as (m0 & t0 & m1 & t1 & m3 & t3 & m4 & t4 & -> & T2 & T4). reflexivity.
  - split; [reflexivity|]. destruct H as (m0 & t0 & m1 & t1 & m3 & t3 & m4' & t4' & -> & T2 & T4). reflexivity.
  - rewrite !no_listens by exact E1. split; [reflexivity|]. rewrite (sends_eq _ _ _ _ Hq), emit_none by exact E2. reflexivity.
Qed.
Lemma init_click n m4 t4 q x : on_init n m4 t4 -> node_at q [n] = Some x ->
  listens (bs "initialize_username") x = false /\ act (Clicks q) [n] = ([n], if listens (bs "submit_message") x then [u_text USend] else []).
Proof.
  intros H Hq. cbn [act]. destruct (init_places _ _ _ _ _ H Hq) as [[-> ->]|[(m6 & t6 & -> & -> & T)|(E1 & _ & E2)]].
  - split; [reflexivity|]. destruct H as (m0 & t0 & m1 & t1 & pn & m3 & t3 & m5 & t5 & m6 & t6 & rows & -> & Dp & Dr & T4 & T6). reflexivity.
  - split; [reflexivity|]. destruct H as (m0 & t0 & m1 & t1 & pn & m3 & t3 & m5 & t5 & m6' & t6' & rows & -> & Dp & Dr & T4 & T6). reflexivity.
  - rewrite !no_listens by exact E1. split; [reflexivity|]. rewrite (sends_eq _ _ _ _ Hq), emit_none by exact E2. reflexivity.
Qed.
Lemma uninit_shown n m2 t2 : on_uninit n m2 t2 -> flat_map (shown_by (bs "set_username")) [n] = [field_of m2 t2].
Proof.
  intros (m0 & t0 & m1 & t1 & m3 & t3 & m4 & t4 & -> & _). cbn [flat_map shown_by existsb snd app]. 
  change (str_eqb (bs "set_username") (bs "set_username")) with true. change (str_eqb (bs "initialize_username") (bs "set_username")) with false. cbn [orb app]. now rewrite field_of_value.
Qed.
Lemma init_shown n m4 t4 : on_init n m4 t4 -> flat_map (shown_by (bs "update_message_contents")) [n] = [field_of m4 t4].
Proof.
  intros (m0 & t0 & m1 & t1 & pn & m3 & t3 & m5 & t5 & m6 & t6 & rows & -> & Dp & Dr & _). cbn [flat_map shown_by existsb snd app].
  change (str_eqb (bs "update_message_contents") (bs "update_message_contents")) with true. change (str_eqb (bs "submit_message") (bs "update_message_contents")) with false. cbn [orb app].
  assert (shown_by (bs "update_message_contents") pn = []) as ->. { pose proof (dull_shown (bs "update_message_contents") [pn] ltac:(repeat constructor; exact Dp)) as E. cbn [flat_map] in E. now rewrite app_nil_r in E. }
  rewrite dull_shown by exact Dr. cbn [app]. now rewrite field_of_value.
Qed.
Lemma uninit_at n m2 t2 : on_uninit n m2 t2 -> node_at [0; 0; 0] [n] = Some (VElem (bs "input") m2 t2 [(bs "input", bs "set_username")] []).
Proof. now intros (m0 & t0 & m1 & t1 & m3 & t3 & m4 & t4 & -> & _). Qed.
Lemma init_at n m4 t4 : on_init n m4 t4 -> node_at [0; 0; 1; 0] [n] = Some (VElem (bs "input") m4 t4 [(bs "input", bs "update_message_contents")] []).
Proof. now intros (m0 & t0 & m1 & t1 & pn & m3 & t3 & m5 & t5 & m6 & t6 & rows & -> & _). Qed.
