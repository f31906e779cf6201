(** C107: texts and attribute values are never read as markup by the browser. *)
From Verif Require Import Base HMap Num Json DomModel DomSpec DomProofs DomProofs2 DomProofs3 DomProofs4 DomKeyed HtmlModel
  ClientModel ClientSpec BrowserSpec ClientProofs ClientProofs2 BrowserProofs InnerHtml InnerHtmlProofs ComponentModel ComponentSpec ComponentProofs.
From Coq Require Import Lia.

(** ** Specification: the names of a page *)
Fixpoint tags_in (e : element) : list str :=
  match e with Element _ n _ _ cs _ _ => n :: flat_map tags_in cs end.
Fixpoint attrs_in (e : element) : list str :=
  match e with Element _ _ a _ cs _ _ => map fst a ++ flat_map attrs_in cs end.
(** Tags of the pages, and [p] (which browsers make of an end tag they do not expect). *)
Definition page_tag (pages : list element) (t : str) : Prop := t = bs "p" \/ In t (flat_map tags_in pages).
(** Names of attributes of the pages, as the client reads them, and [id]. *)
Definition page_attr (pages : list element) (k : str) : Prop := k = bs "id" \/ exists q, In q (flat_map attrs_in pages) /\ k = to_lower (cut q).
(** Pages made of elements the parser knows (InnerHtml.v). *)
Definition known_tags : element -> Prop := every (fun e => InnerHtml.kind_of (el_name e) <> None).

(** ** Proofs *)
Lemma made_mono (T K T' K' : str -> Prop) n : (forall t, T t -> T' t) -> (forall k, K k -> K' k) -> made_of T K n -> made_of T' K' n.
Proof.
  intros HT HK. induction n as [s|t a l kids IH] using InnerHtmlProofs.node_ind2; [auto|]. rewrite !made_elem. intros (H1 & H2 & H3). split; [auto|]. split.
  - eapply Forall_impl; [|exact H2]. cbn. auto.
  - clear -IH H3. induction IH as [|c kids Hc _ IHk]; [constructor|]. inversion H3; subst. constructor; auto.
Qed.
Lemma valid_lower s : valid_name s = true -> valid_name (to_lower s) = true.
Proof.
  destruct s as [|b r]; [discriminate|]. cbn [valid_name to_lower map]. intros H. apply andb_true_iff in H as [H1 H2]. apply andb_true_iff.
  assert (forall c, implb (name_start c) (name_start (lower c)) = true) as A by (apply byte_sweep; now vm_compute).
  assert (forall c, implb (name_char c) (name_char (lower c)) = true) as B by (apply byte_sweep; now vm_compute). split.
  - specialize (A b). now rewrite H1 in A.
  - rewrite forallb_forall in *. intros c Hc. apply in_map_iff in Hc as (d & <- & Hd). specialize (B d). now rewrite (H2 d Hd) in B.
Qed.

(** The names an instruction gives to the browser. *)
Definition names_of (T K : str -> Prop) (i : instr) : Prop :=
  match i with
  | CreateTag n _ | SetTagName n => T n
  | SetAttribute k _ => K k
  | _ => True
  end.
Lemma names_mono (T K T' K' : str -> Prop) i : (forall t, T t -> T' t) -> (forall k, K k -> K' k) -> names_of T K i -> names_of T' K' i.
Proof. intros HT HK. destruct i; cbn; auto. Qed.

Lemma edit_made T K (R : node -> list node -> Prop) : (forall n r, R n r -> made_of T K n -> Forall (made_of T K) r) ->
  forall d d', node_edit R d d' -> Forall (made_of T K) d -> Forall (made_of T K) d'.
Proof.
  intros H d d' E. induction E as [l1 n r l2 HR|l1 t a l k k' l2 E IH]; rewrite !Forall_app.
  - intros [H1 H2]. inversion H2; subst. split; [exact H1|]. split; eauto.
  - intros [H1 H2]. inversion H2 as [|? ? Hx H3]; subst. split; [exact H1|]. constructor; [|exact H3]. rewrite made_elem in *. destruct Hx as (? & ? & Hk). auto.
Qed.
Lemma by_id_made (T K : str -> Prop) i f d d' : (forall t a l k r, f (Elem t a l k) = Some r -> T t -> Forall (fun kv => K (fst kv)) a -> Forall (made_of T K) k -> Forall (made_of T K) r) ->
  by_id i f d = Some d' -> Forall (made_of T K) d -> Forall (made_of T K) d'.
Proof.
  intros H E. apply by_id_edit in E. revert E. apply edit_made. intros [s|t a l k] r [Hi Hf] Hm; [discriminate Hi|].
  apply made_elem in Hm as (H1 & H2 & H3). exact (H t a l k r Hf H1 H2 H3).
Qed.
Lemma clone_made T K n : made_of T K n -> made_of T K (clone n).
Proof.
  induction n as [s|t a l kids IH] using InnerHtmlProofs.node_ind2; [auto|]. cbn [clone]. rewrite !made_elem. intros (H1 & H2 & H3). split; [exact H1|]. split; [exact H2|].
  clear -IH H3. induction IH as [|c kids Hc _ IHk]; [constructor|]. inversion H3; subst. constructor; auto.
Qed.
Lemma insert_all {V} (P : str * V -> Prop) k v m : P (k, v) -> Forall P m -> Forall P (insert k v m).
Proof.
  intros H F. induction F as [|[k' v'] m Hx F IH]; cbn [insert]; [auto|]. destruct (str_eqb k k') eqn:E; constructor; auto.
  apply str_eqb_eq in E. now subst.
Qed.
Lemma remove_all {V} (P : str * V -> Prop) k m : Forall P m -> Forall P (remove k m).
Proof. intros F. induction F as [|[k' v'] m Hx F IH]; cbn [remove]; [auto|]. destruct (str_eqb k k'); auto. Qed.
Lemma known_lower t : InnerHtml.kind_of t <> None -> to_lower t = t /\ plus_free t.
Proof.
  intros H. apply kind_known in H.
  assert (forallb (fun t => str_eqb (to_lower t) t && negb (existsb (byte_eqb plus) t)) all_tags = true) as C by (now vm_compute).
  rewrite forallb_forall in C. apply C in H. apply andb_true_iff in H as [H1 H2]. split; [now apply str_eqb_eq|].
  intros Hin. apply negb_true_iff in H2. enough (existsb (byte_eqb plus) t = true) by congruence. apply existsb_exists. exists plus. split; [exact Hin|apply byte_eqb_refl].
Qed.

(** One instruction keeps a document made of [T] and [K]. *)
Lemma exec_made reparse (T K Q : str -> Prop) o doc doc' : frugal reparse -> ordinary T K -> T (bs "p") -> K attr_id ->
  (forall q, Q q -> valid_name (cut q) = true -> K (to_lower (cut q))) -> names_of T Q (op_instr o) ->
  js_exec reparse (js_op o) doc = Some doc' -> Forall (made_of T K) doc -> Forall (made_of T K) doc'.
Proof.
  intros Hf HO Hp Hi HQ Hn. pose proof HO as [OT _].
  assert (forall t a l k, T t -> Forall (fun kv : str * str => K (fst kv)) a -> Forall (made_of T K) k -> Forall (made_of T K) [Elem t a l k]) as One.
  { intros t a l k H1 H2 H3. constructor; [|constructor]. rewrite made_elem. auto. }
  assert (forall name i el, T name -> make_el name i = Some el -> made_of T K el) as Mk.
  { intros name i el Ht. unfold make_el. destruct (valid_name name); [|discriminate]. intros [= <-]. apply made_elem.
    destruct (known_lower name (OT name Ht)) as [-> _]. repeat constructor; auto. }
  destruct o as [i ins]. destruct ins; cbn [op_instr names_of] in *; unfold js_exec, js_op; cbn [op_id op_instr js_el js_ty js_payload op_ty op_payload];
    repeat match goal with |- context [str_eqb (bs ?a) (bs ?b)] => let r := eval vm_compute in (str_eqb (bs a) (bs b)) in change (str_eqb (bs a) (bs b)) with r; cbv iota end.
  all: try (intros [= <-]; auto; fail).
  all: idtac.
  - (* setAttr *) apply by_id_made. intros t a l k r. rewrite part0_cut. rewrite cut_app. destruct (valid_name (cut key)) eqn:Ev; [|discriminate].
    intros [= <-] H1 H2 H3. apply One; auto. apply insert_all; [|exact H2]. cbn [fst]. auto.
  - apply by_id_made. intros t a l k r [= <-] H1 H2 H3. apply One; auto. now apply remove_all.
  - apply by_id_made. intros t a l k r [= <-] H1 H2 H3. apply One; auto. now apply insert_all.
  - apply by_id_made. intros t a l k r [= <-] H1 H2 H3. apply One; auto. unfold text_nodes. destruct value; constructor; [exact I|constructor].
  - apply by_id_made. intros t a l k r. destruct (valid_name name); [|discriminate]. intros [= <-] H1 H2 H3. destruct (known_lower name (OT name Hn)) as [-> _].
    apply One; auto. apply frugal_made; auto.
  - rewrite part0 by (apply known_lower; auto). destruct (make_el name i) as [el|] eqn:Em; [|discriminate]. apply Mk in Em; [|exact Hn].
    destruct (part 1 _) as [[|b q]|].
    + intros [= <-] H. rewrite Forall_app. auto.
    + apply by_id_made. intros t a l k r [= <-] H1 H2 H3. apply One; auto. rewrite Forall_app. auto.
    + intros [= <-] H. rewrite Forall_app. auto.
  - apply by_id_made. intros t a l k r [= <-] H1 H2 H3. constructor; [|constructor]. apply (clone_made T K (Elem t a l k)). apply made_elem. auto.
  - apply by_id_made. intros t a l k r. destruct (part 0 _); [|discriminate]. destruct (part 1 _); [|discriminate]. intros [= <-] H1 H2 H3. apply One; auto.
  - apply by_id_made. intros t a l k r [= <-] H1 H2 H3. constructor.
Qed.
Lemma run_made reparse (T K Q : str -> Prop) os : frugal reparse -> ordinary T K -> T (bs "p") -> K attr_id ->
  (forall q, Q q -> valid_name (cut q) = true -> K (to_lower (cut q))) -> Forall (fun o => names_of T Q (op_instr o)) os ->
  forall doc, Forall (made_of T K) doc -> Forall (made_of T K) (fst (on_message reparse (wire os) doc)).
Proof.
  intros Hf HO Hp Hi HQ Hn doc Hd. unfold on_message. rewrite read_wire. revert doc Hd. induction Hn as [|o os Ho _ IH]; intros doc Hd; [exact Hd|].
  cbn [map js_run]. destruct (js_exec reparse (js_op o) doc) as [doc'|] eqn:E; [|exact Hd]. apply IH. eapply exec_made; eauto.
Qed.

(** The names in a changeset are names of the new page. *)
Lemma own_names a b o : In o (diff_own a b) -> names_of (fun t => t = el_name b) (fun k => In k (map fst (el_attrs b))) (op_instr o).
Proof.
  unfold diff_own. rewrite !in_app_iff. intros [H|[H|[H|H]]].
  - unfold diff_name in H. destruct (str_eqb _ _); [destruct H|]. destruct H as [<-|[]]. reflexivity.
  - unfold diff_attributes in H. destruct (hm_eqb _ _); [destruct H|]. apply in_app_or in H as [H|H]; apply in_flat_map in H as (kv & Hkv & H).
    + destruct (contains_key _ _); [destruct H|]. destruct H as [<-|[]]. exact I.
    + destruct (get _ _); [destruct (str_eqb _ _); [destruct H|]|]; destruct H as [<-|[]]; cbn; now apply in_map.
  - unfold diff_text in H. destruct (text_eqb _ _); [destruct H|]. destruct (el_text b); destruct H as [<-|[]]; exact I.
  - unfold diff_listeners in H. destruct (listeners_eqb _ _); [destruct H|]. destruct H as [<-|H]; [exact I|].
    unfold generate_listeners in H. apply in_map_iff in H as (l & <- & _). exact I.
Qed.
Definition page_names (e : element) : op -> Prop := fun o => names_of (fun t => In t (tags_in e)) (fun k => In k (attrs_in e)) (op_instr o).
Lemma names_child c cs i n a l t k o : In c cs -> page_names c o -> page_names (Element i n a l cs t k) o.
Proof.
  intros Hc. apply names_mono; cbn [tags_in attrs_in]; intros x Hx.
  - right. apply in_flat_map. eauto.
  - apply in_or_app. right. apply in_flat_map. eauto.
Qed.
Lemma create_names d : forall p o, In o (create_from_scratch d p) -> page_names d o.
Proof.
  induction d as [i n a l cs t k IH] using element_ind2. intros p o. rewrite create_eq.
  intros [<-|H]; [left; reflexivity|]. apply in_app_or in H as [H|H].
  - apply in_map_iff in H as (ins & <- & H). unfold page_names. cbn [op_instr]. rewrite !in_app_iff in H. destruct H as [H|[H|H]].
    + apply in_map_iff in H as (kv & <- & Hkv). cbn. apply in_or_app. left. now apply in_map.
    + apply in_map_iff in H as (kv & <- & _). exact I.
    + destruct t; [destruct H as [<-|[]]; exact I|destruct H].
  - apply in_flat_map in H as (c & Hc & H). rewrite Forall_forall in IH. apply (names_child c); [exact Hc|]. eapply IH; eauto.
Qed.
Lemma diff_names b : forall a os o, diff_to b a = Some os -> In o os -> page_names b o.
Proof.
  induction b as [bi bn ba bl bc bt bk IH] using element_ind2. intros a os o E Ho. rewrite diff_to_eq in E.
  apply (cat_in _ _ _ E) in Ho as (os' & Hl & Ho). cbn [In] in Hl. destruct Hl as [Hl|[Hl|[Hl|[]]]].
  - injection Hl as <-. apply own_names in Ho. revert Ho. apply names_mono; cbn [tags_in attrs_in el_name el_attrs]; intros x Hx; [now left|]. apply in_or_app. now left.
  - assert (forall d c os1, In d bc -> diff_to d c = Some os1 -> In o os1 -> page_names (Element bi bn ba bl bc bt bk) o) as Hd.
    { intros d c os1 Hin E1 Ho1. rewrite Forall_forall in IH. apply (names_child d); [exact Hin|]. eapply IH; eauto. }
    destruct (all_keyed a && _).
    + unfold keyed_kids in Hl. apply (cat_in _ _ _ Hl) in Ho as (os2 & Hl2 & Ho). cbn [In el_children] in Hl2. destruct Hl2 as [H|[H|[H|[]]]].
      * apply (cat_in _ _ _ H) in Ho as (os3 & H3 & Ho). clear -Hd H3 Ho.
        assert (forall ds, incl ds bc -> In (Some os3) (pair_ops (el_children a) ds) -> page_names (Element bi bn ba bl bc bt bk) o) as G; [|apply (G bc); [intros ? ?; assumption|exact H3]].
        clear H3. induction ds as [|d ds IHds]; intros Hi H3; cbn [pair_ops] in H3; [destruct H3|].
        assert (In (Some os3) (pair_ops (el_children a) ds) -> page_names (Element bi bn ba bl bc bt bk) o) as G by (apply IHds; intros x Hx; apply Hi; now right).
        destruct (el_key d); [|auto]. destruct (locate _ _) as [c|]; [|auto]. destruct H3 as [H3|H3]; [|auto]. apply (Hd d c os3); auto. apply Hi. now left.
      * apply (cat_in _ _ _ H) in Ho as (os3 & H3 & Ho). apply in_map_iff in H3 as (n & H3 & _). unfold keyed_insert in H3.
        destruct (nth_error bc n); [|discriminate].
        destruct (Nat.eqb n 0); [|destruct (Nat.eqb n _)]; [destruct (nth_error bc 1); [|discriminate]| |destruct (nth_error bc _); [|discriminate]];
          injection H3 as <-; destruct Ho as [<-|[]]; exact I.
      * injection H as <-. unfold keyed_deletes in Ho. apply in_flat_map in Ho as (c & _ & Ho). destruct (el_key c); [|destruct Ho].
        destruct (locate _ _); [destruct Ho|]. destruct Ho as [<-|[]]. exact I.
    + unfold plain_kids in Hl. apply (cat_in _ _ _ Hl) in Ho as (os2 & Hl2 & Ho). cbn [In el_children] in Hl2. destruct Hl2 as [H|[H|[H|[]]]].
      * injection H as <-. apply in_map_iff in Ho as (c & <- & _). exact I.
      * apply (cat_in _ _ _ H) in Ho as (os3 & H3 & Ho). clear -Hd H3 Ho.
        assert (forall ds cs, incl ds bc -> In (Some os3) (zip_ops ds cs) -> page_names (Element bi bn ba bl bc bt bk) o) as G; [|apply (G bc (el_children a)); [intros ? ?; assumption|exact H3]].
        clear H3. induction ds as [|d ds IHds]; intros [|c cs] Hi H3; cbn [zip_ops] in H3; try (now destruct H3). destruct H3 as [H3|H3].
        -- apply (Hd d c os3); auto. apply Hi. now left.
        -- apply (IHds cs); [|exact H3]. intros x Hx. apply Hi. now right.
      * injection H as <-. apply in_flat_map in Ho as (d & Hin & Ho). apply (names_child d); [|eapply create_names; eauto].
        rewrite <- (firstn_skipn (length (el_children a)) bc). apply in_or_app. now right.
  - injection Hl as <-. unfold diff_id in Ho. destruct (N.eqb _ _); [destruct Ho|]. destruct Ho as [<-|[]]. exact I.
Qed.

Lemma known_all e t : known_tags e -> In t (tags_in e) -> InnerHtml.kind_of t <> None.
Proof.
  unfold known_tags. revert t. induction e as [i n a l cs tx k IH] using element_ind2. intros t H. inversion H as [? H1 H2]; subst. cbn [tags_in el_name el_children] in *.
  intros [<-|Hin]; [exact H1|]. apply in_flat_map in Hin as (c & Hc & Hin). rewrite Forall_forall in IH, H2. eauto.
Qed.

(* ------------------------------------------------------------------ *)
(** ** C107. Whatever the pages of a session contain as text, attribute value or listener name: every element of the
    document in the browser has a tag and attribute names taken from one of the pages (or is a [p]); nothing a text
    says becomes an element or an attribute. It does not matter whether the document follows the pages. *)
Theorem C107_text_is_not_markup_partial : forall reparse, frugal reparse -> forall first later outs doc ok,
  Forall known_tags (first :: later) -> updates first later outs ->
  browse reparse (wire (create_from_scratch first None) :: outs) [] = (doc, ok) ->
  Forall (made_of (page_tag (first :: later)) (page_attr (first :: later))) doc.
Proof.
  intros reparse Hf first later outs doc ok Hk Hu Hb.
  set (T := page_tag (first :: later)).
  set (K := fun k => k = bs "id" \/ exists q, In q (flat_map attrs_in (first :: later)) /\ valid_name (cut q) = true /\ k = to_lower (cut q)).
  set (Q := fun q : str => In q (flat_map attrs_in (first :: later))).
  enough (Forall (made_of T K) doc) as G.
  { eapply Forall_impl; [|exact G]. intros n. apply made_mono; [auto|]. intros k [->|(q & Hq & _ & ->)]; [now left|right; eauto]. }
  assert (ordinary T K) as HO.
  { split.
    - intros t [->|Ht]; [discriminate|]. apply in_flat_map in Ht as (e & He & Ht). rewrite Forall_forall in Hk. eapply known_all; eauto.
    - intros k [->|(q & _ & Hv & ->)]; [split; reflexivity|]. split; [now apply valid_lower|apply to_lower_idem]. }
  assert (forall d os, In d (first :: later) -> Forall (page_names d) os -> forall x, Forall (made_of T K) x -> Forall (made_of T K) (fst (on_message reparse (wire os) x))) as Step.
  { intros d os Hin Hos x Hx. apply run_made with (Q := Q); auto.
    - now left.
    - now left.
    - intros q Hq Hv. right. exists q. auto.
    - eapply Forall_impl; [|exact Hos]. intros o. apply names_mono.
      + intros t Ht. right. apply in_flat_map. eauto.
      + intros k Hk'. apply in_flat_map. eauto. }
  assert (forall d ds os, updates d ds os -> incl ds (first :: later) -> forall x y b, Forall (made_of T K) x -> browse reparse os x = (y, b) -> Forall (made_of T K) y) as Go.
  { clear -Step. intros d ds os U. induction U as [d|d d' ds os outs Hd U IH]; intros Hin x y b Hx; cbn [browse].
    - now intros [= <- <-].
    - destruct (on_message reparse (wire os) x) as [x1 b1] eqn:E. destruct (browse reparse outs x1) as [x2 b2] eqn:E2. intros [= <- <-].
      apply (IH (fun z Hz => Hin z (or_intror Hz)) x1 x2 b2); [|exact E2]. replace x1 with (fst (on_message reparse (wire os) x)) by now rewrite E.
      apply (Step d'); [apply Hin; now left| |exact Hx]. apply Forall_forall. intros o Ho. eapply diff_names; eauto. }
  cbn [browse] in Hb. destruct (on_message reparse (wire (create_from_scratch first None)) []) as [x1 b1] eqn:E. destruct (browse reparse outs x1) as [x2 b2] eqn:E2.
  injection Hb as <- <-. apply (Go _ _ _ Hu (fun z Hz => or_intror Hz) x1 x2 b2); [|exact E2].
  replace x1 with (fst (on_message reparse (wire (create_from_scratch first None)) [])) by now rewrite E.
  apply (Step first); [now left| |constructor]. apply Forall_forall. intros o Ho. eapply create_names; eauto.
Qed.
Print Assumptions C107_text_is_not_markup_partial.
(** Pages built with the library's html layer are of this kind, whatever is in them. *)
Theorem C107_html_layer : forall w head e next, into_element w head = Some (e, next) -> known_tags e.
Proof.
  induction w as [k a t ls cs IH] using wrapped_ind2. intros head e next. rewrite into_element_eq. destruct (arm_of k) as [m|] eqn:Em; [|discriminate].
  assert (InnerHtml.kind_of (arm_name m) <> None) as Hk by (destruct k; cbn in Em; try discriminate Em; injection Em as <-; discriminate).
  assert (forall h es h', into_list cs h = Some (es, h') -> Forall known_tags es) as Hl.
  { clear -IH. induction IH as [|c cs Hc _ IHcs]; intros h es h'; cbn [into_list].
    - intros [= <- <-]. constructor.
    - destruct (into_element c h) as [[e h1]|] eqn:E; [|discriminate]. destruct (into_list cs h1) as [[es' h2]|] eqn:E2; [|discriminate].
      intros [= <- <-]. constructor; eauto. }
  destruct (arm_children m).
  - destruct (into_list cs (head + 1)) as [[es h]|] eqn:E; [|discriminate]. intros [= <- <-]. constructor; [exact Hk|]. cbn [el_children]. eauto.
  - intros [= <- <-]. constructor; [exact Hk|constructor].
Qed.
Print Assumptions C107_html_layer.
(** A component whose pages come from there: in every session, whatever users type and other components send. *)
Theorem C107_component_sessions : forall reparse, frugal reparse -> forall D I S E P (C : component D I S E P) data e0 p ms ctx c dom ls out doc ok,
  (forall x d l, c_render C x = Some (d, l) -> exists w head next, into_element w head = Some (d, next)) ->
  main_loop C data true ((e0, WhoAmI p) :: ms) = (Looping ctx c dom ls, out) -> browse reparse out [] = (doc, ok) ->
  exists c0 d0 l0 cs doms, c_new C e0 data p = Some c0 /\ c_render C c0 = Some (d0, l0) /\ lives C p c0 ms cs c /\ pages C cs doms /\
    Forall (made_of (page_tag (d0 :: doms)) (page_attr (d0 :: doms))) doc.
Proof.
  intros reparse Hf D I S E P C data e0 p ms ctx c dom ls out doc ok Hr H Hb. apply main_loop_spec in H as (_ & R & c0 & d0 & l0 & cs & doms & outs & H1 & H2 & H3 & H4 & H5 & ->).
  exists c0, d0, l0, cs, doms. split; [exact H1|]. split; [exact H2|]. split; [exact H3|]. split; [exact H4|].
  apply (C107_text_is_not_markup_partial reparse Hf d0 doms outs doc ok); auto.
  assert (forall x d l, c_render C x = Some (d, l) -> known_tags d) as G by (intros x d l Hx; destruct (Hr x d l Hx) as (w & h & n & Hw); eapply C107_html_layer; eauto).
  constructor; [eauto|]. clear -H4 G. induction H4 as [|x d cs doms [l Hl] _ IH]; constructor; eauto.
Qed.
Print Assumptions C107_component_sessions.

(** With other elements: a [style] element that becomes a [div] keeps its text, and the browser reads it as markup. *)
Definition payload : str := [x3c] ++ bs "img src=" ++ [x22; x78; x22] ++ bs " onerror=" ++ [x22] ++ bs "alert(1)" ++ [x22; x3e].
Definition styled : element := Element 0 (bs "style") [] [] [] (Some payload) None.
Definition unstyled : element := Element 0 (bs "div") [] [] [] (Some payload) None.
Theorem C107_raw_text_refuted : exists os, diff styled (Some unstyled) = Some os /\
  flat_map tags_in [styled; unstyled] = [bs "style"; bs "div"] /\ flat_map attrs_in [styled; unstyled] = [] /\
  forall reparse, standard reparse ->
    browse reparse [wire (create_from_scratch styled None); wire os] [] =
    ([Elem (bs "div") [(bs "id", bs "0")] [] [Elem (bs "img") [(bs "src", bs "x"); (bs "onerror", bs "alert(1)")] [] []]], true).
Proof.
  eexists. split; [vm_compute; reflexivity|]. split; [reflexivity|]. split; [reflexivity|]. intros reparse Hs.
  cbn [browse]. unfold on_message. rewrite !read_wire.
  pose proof (Hs (bs "style") (bs "div") [Text payload] _ ltac:(vm_compute; reflexivity)) as Hp.
  assert (js_run reparse (map js_op (create_from_scratch styled None)) [] = ([Elem (bs "style") [(bs "id", bs "0")] [] [Text payload]], true)) as -> by (vm_compute; reflexivity).
  match goal with |- context [js_run reparse (map js_op ?o) ?d] =>
    assert (js_run reparse (map js_op o) d = ([Elem (bs "div") [(bs "id", bs "0")] [] (reparse (bs "style") (bs "div") [Text payload])], true)) as -> by (vm_compute; reflexivity) end.
  now rewrite Hp.
Qed.
Print Assumptions C107_raw_text_refuted.

(** A browser as assumed, and a session it is about: a [div] holding the same text in a [label] becomes a [section]. *)
Definition typed : element := Element 0 (bs "div") [] [] [Element 1 (bs "label") [(bs "Title", payload)] [] [] (Some payload) None] None None.
Definition retyped : element := Element 0 (bs "section") [] [] [Element 1 (bs "label") [(bs "Title", payload)] [] [] (Some payload) None] None None.
Example C107_example : frugal careful_browser /\ standard careful_browser /\ Forall known_tags [typed; retyped] /\
  (exists outs, updates typed [retyped] outs /\
     browse careful_browser (wire (create_from_scratch typed None) :: outs) [] =
     ([Elem (bs "section") [(bs "id", bs "0")] [] [Elem (bs "label") [(bs "id", bs "1"); (bs "title", payload)] [] [Text payload]]], true)) /\
  ~ page_tag [typed; retyped] (bs "img") /\ ~ page_attr [typed; retyped] (bs "onerror").
Proof.
  split; [exact careful_frugal|]. split; [exact careful_standard|]. split; [repeat (constructor; [constructor; [discriminate|constructor; [constructor; [discriminate|constructor]|constructor]]|]); constructor|].
  split.
  - eexists. split; [eapply up_cons; [vm_compute; reflexivity|constructor]|]. vm_compute. reflexivity.
  - split.
    + intros [H|H]; [discriminate|]. vm_compute in H. repeat destruct H as [H|H]; try discriminate; exact H.
    + intros [H|(q & H & E)]; [discriminate|]. vm_compute in H. repeat destruct H as [<-|H]; try (now vm_compute in E); exact H.
Qed.

(** Where the HTML Standard closes an element by itself, the parser has no answer: a block or a heading in a paragraph, a
    heading in a heading, a link in a link, a button in a button, a form in a form. *)
Example C107_no_answer :
  map (fun m => html_parse (bs "div") (bs m)) ["<p><div></div></p>"; "<p><h1></h1></p>"; "<h1><h2></h2></h1>"; "<a><a></a></a>"; "<button><button></button></button>";
    "<form><form></form></form>"; "<li><li></li></li>"; "<p><li></li></p>"]%string = repeat None 8 /\
  html_parse (bs "form") (bs "<form></form>") = None.
Proof. split; vm_compute; reflexivity. Qed.
