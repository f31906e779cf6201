(** Proofs about the wire and the browser. *)
From Verif Require Import Base HMap Num Utf8 Json DomModel DomSpec DomProofs DomProofs2 DomProofs3 DomProofs4 ClientModel InnerHtml InnerHtmlProofs ClientSpec.
From Coq Require Import Lia.

(* ------------------------------------------------------------------ *)
(** ** The wire *)

Definition js_op (o : op) : jsop := JsOp (op_id o) (op_ty (op_instr o)) (op_payload (op_instr o)).

Lemma read_op_json o : read_op (op_json o) = Some (js_op o).
Proof. destruct o as [i []]; reflexivity. Qed.
Lemma read_wire os : read_message (wire os) = Some (map js_op os).
Proof.
  unfold read_message, wire. rewrite json_round_trip.
  - induction os as [|o os IH]; [reflexivity|]. cbn [map read_ops]. now rewrite read_op_json, IH.
  - constructor. apply Forall_forall. intros v Hv. apply in_map_iff in Hv as (o & <- & _). constructor.
    destruct o as [i []]; cbn; repeat constructor.
  - cbn [jdepth print_json]. rewrite !app_length. change (length (bs "[")) with 1. change (length (bs "]")) with 1.
    assert (fold_right (fun x m => Nat.max (jdepth x) m) 0 (map op_json os) <= 1); [|lia].
    induction os as [|o os IH]; [cbn; lia|]. cbn [map fold_right]. assert (jdepth (op_json o) <= 1); [|lia].
    destruct o as [i []]; cbn; lia.
Qed.

Lemma split_free a : plus_free a -> split_on plus a = [a].
Proof.
  induction a as [|x a IH]; intros H; [reflexivity|]. cbn [split_on].
  destruct (byte_eqb x plus) eqn:E; [apply byte_eqb_eq in E; exfalso; apply H; now left|].
  rewrite IH; [reflexivity|]. intros X. apply H. now right.
Qed.
Lemma split_glued a b : plus_free a -> split_on plus (a ++ plus :: b) = a :: split_on plus b.
Proof.
  induction a as [|x a IH]; intros H; cbn [app split_on]; [now rewrite byte_eqb_refl|].
  destruct (byte_eqb x plus) eqn:E; [apply byte_eqb_eq in E; exfalso; apply H; now left|].
  rewrite IH; [reflexivity|]. intros X. apply H. now right.
Qed.
Lemma part0 a b : plus_free a -> part 0 (a ++ plus :: b) = Some a.
Proof. intros H. unfold part. now rewrite split_glued. Qed.
Lemma part1 a b : plus_free a -> plus_free b -> part 1 (a ++ plus :: b) = Some b.
Proof. intros H1 H2. unfold part. rewrite split_glued, split_free by assumption. reflexivity. Qed.
Lemma split_hd s : exists l, split_on plus s = cut s :: l.
Proof.
  induction s as [|x s (l & IH)]; [now exists []|]. cbn [split_on cut]. destruct (byte_eqb x plus); [eexists; reflexivity|]. rewrite IH. eexists. reflexivity.
Qed.
Lemma part1_cut a b : plus_free a -> part 1 (a ++ plus :: b) = Some (cut b).
Proof. intros H. unfold part. rewrite split_glued by exact H. destruct (split_hd b) as (l & ->). reflexivity. Qed.
Lemma cut_free s : plus_free s -> cut s = s.
Proof.
  induction s as [|x s IH]; intros H; [reflexivity|]. cbn [cut]. destruct (byte_eqb x plus) eqn:E; [apply byte_eqb_eq in E; exfalso; apply H; now left|].
  rewrite IH; [reflexivity|]. intros X. apply H. now right.
Qed.

Lemma received_ok o : wire_safe (op_instr o) -> received (js_op o) = arguments (op_instr o).
Proof.
  destruct o as [i ins]. unfold received, js_op. cbn [op_instr js_payload js_ty op_id]. destruct ins as [ | | |k v| | | | |n p| | |n e|e h| ]; intros H; try reflexivity; cbn [op_payload op_ty arguments].
  - destruct H. change (existsb _ _) with true. cbv iota. now rewrite part0, part1.
  - destruct H as [H1 H2]. change (existsb _ _) with true. cbv iota. rewrite part0 by exact H1. rewrite part1; [reflexivity|exact H1|]. destruct p; [exact H2|intros []].
  - destruct H. change (existsb _ _) with true. cbv iota. now rewrite part0, part1.
  - destruct H. change (existsb _ _) with true. cbv iota. now rewrite part0, part1.
Qed.

(* ------------------------------------------------------------------ *)
(** ** Finding nodes *)

Lemma node_ind2 (P : node -> Prop) :
  (forall s, P (Text s)) -> (forall t a l kids, Forall P kids -> P (Elem t a l kids)) -> forall n, P n.
Proof.
  intros H1 H2. fix IH 1. intros [s|t a l kids]; [apply H1|]. apply H2. induction kids as [|c kids IHk]; constructor; [apply IH|exact IHk].
Qed.
(** The ids of a document, in order. *)
Fixpoint nids (n : node) : list str :=
  match n with
  | Text _ => []
  | Elem _ a _ kids => match get attr_id a with Some i => [i] | None => [] end ++ flat_map nids kids
  end.
Lemma edit_node_eq i f t a l kids :
  edit_node i f (Elem t a l kids) =
  if has_id i (Elem t a l kids) then Some (f (Elem t a l kids))
  else match edit_nodes i f kids with
       | Some (Some kids') => Some (Some [Elem t a l kids'])
       | Some None => Some None
       | None => None
       end.
Proof.
  cbn [edit_node]. destruct (has_id i (Elem t a l kids)); [reflexivity|].
  assert ((fix go (ns : list node) : option (option (list node)) :=
                    match ns with
                    | [] => None
                    | c :: ns' =>
                        match edit_node i f c with
                        | Some (Some r) => Some (Some (r ++ ns'))
                        | Some None => Some None
                        | None => match go ns' with
                                  | Some (Some r) => Some (Some (c :: r))
                                  | Some None => Some None
                                  | None => None
                                  end
                        end
                    end) kids = edit_nodes i f kids) as ->; [|reflexivity].
  induction kids as [|c kids IH]; [reflexivity|]. cbn [edit_nodes]. now rewrite IH.
Qed.
Lemma has_id_in i n : has_id i n = true -> In i (nids n).
Proof.
  unfold has_id. destruct n as [s|t a l kids]; cbn [node_id nids]; [discriminate|]. destruct (get attr_id a) as [j|]; [|discriminate].
  intros H. apply str_eqb_eq in H as ->. now left.
Qed.
Lemma edit_none_nodes i f ns : Forall (fun n => ~ In i (nids n) -> edit_node i f n = None) ns -> ~ In i (flat_map nids ns) -> edit_nodes i f ns = None.
Proof.
  induction 1 as [|c ns Hc _ IH]; intros H; [reflexivity|]. cbn [flat_map] in H. rewrite in_app_iff in H. cbn [edit_nodes].
  rewrite Hc by tauto. rewrite IH by tauto. reflexivity.
Qed.
Lemma edit_none i f n : ~ In i (nids n) -> edit_node i f n = None.
Proof.
  induction n as [s|t a l kids IH] using node_ind2; intros H; [reflexivity|]. rewrite edit_node_eq.
  destruct (has_id i (Elem t a l kids)) eqn:E; [apply has_id_in in E; contradiction|].
  rewrite (edit_none_nodes i f kids IH); [reflexivity|]. intros X. apply H. cbn [nids]. apply in_or_app. now right.
Qed.
Lemma edit_nodes_skip i f L1 L2 : ~ In i (flat_map nids L1) ->
  edit_nodes i f (L1 ++ L2) = match edit_nodes i f L2 with Some (Some r) => Some (Some (L1 ++ r)) | x => x end.
Proof.
  induction L1 as [|c L1 IH]; intros H; cbn [app edit_nodes]; [now destruct (edit_nodes i f L2) as [[?|]|]|].
  cbn [flat_map] in H. rewrite in_app_iff in H. rewrite edit_none by tauto. rewrite IH by tauto.
  now destruct (edit_nodes i f L2) as [[?|]|].
Qed.
Lemma edit_nodes_pre i f L1 L2 r : edit_nodes i f L1 = Some (Some r) -> edit_nodes i f (L1 ++ L2) = Some (Some (r ++ L2)).
Proof.
  revert r. induction L1 as [|c L1 IH]; intros r; cbn [app edit_nodes]; [discriminate|].
  destruct (edit_node i f c) as [[x|]|]; [|discriminate|].
  - intros [= <-]. now rewrite <- app_assoc.
  - destruct (edit_nodes i f L1) as [[x|]|]; try discriminate. intros [= <-]. now rewrite (IH x eq_refl).
Qed.
Lemma by_id_lift i f F F' t a l L1 L2 : by_id i f F = Some F' ->
  get attr_id a <> Some i -> ~ In i (flat_map nids L1) ->
  by_id i f [Elem t a l (L1 ++ F ++ L2)] = Some [Elem t a l (L1 ++ F' ++ L2)].
Proof.
  unfold by_id. destruct (edit_nodes i f F) as [[x|]|] eqn:E; try discriminate. intros [= ->] Hr Hn. cbn [edit_nodes]. rewrite edit_node_eq.
  unfold has_id. cbn [node_id].
  rewrite edit_nodes_skip by exact Hn. rewrite (edit_nodes_pre _ _ _ _ _ E).
  destruct (get attr_id a) as [j|]; [|reflexivity]. destruct (str_eqb i j) eqn:Ej; [apply str_eqb_eq in Ej; congruence|reflexivity].
Qed.
Lemma by_id_root i f n rest : has_id i n = true -> by_id i f (n :: rest) = match f n with Some r => Some (r ++ rest) | None => None end.
Proof.
  unfold by_id. intros H. cbn [edit_nodes]. destruct n as [s|t a l kids]; [discriminate|]. rewrite edit_node_eq, H. now destruct (f _).
Qed.

(* ------------------------------------------------------------------ *)
(** ** What is shown *)

Lemma displays_nids n e : displays n e -> nids n = map dec (ids e).
Proof.
  revert n. induction e as [i nm a l cs t k IH] using element_ind2. intros n H. inversion H as [? ? ? ? ? ? ? m kids Hi Ha Hk]; subst.
  cbn [nids ids map]. rewrite Hi. cbn [app]. f_equal. rewrite flat_map_app.
  assert (flat_map nids (text_nodes (text_of t)) = []) as ->. { destruct (text_of t); reflexivity. } cbn [app].
  clear -IH Hk. revert kids Hk. induction IH as [|c cs Hc _ IHcs]; intros kids Hk; inversion Hk; subst; [reflexivity|].
  cbn [flat_map]. rewrite map_app. f_equal; auto.
Qed.
Lemma displays_nids_list ns es : Forall2 displays ns es -> flat_map nids ns = map dec (ids_of es).
Proof.
  induction 1 as [|n e ns es H _ IH]; [reflexivity|]. rewrite ids_of_cons, map_app. cbn [flat_map]. now rewrite (displays_nids _ _ H), IH.
Qed.
Lemma in_map_dec i l : In (dec i) (map dec l) <-> In i l.
Proof.
  rewrite in_map_iff. split; [intros (x & E & H); apply dec_inj in E; now subst|]. intros H. now exists i.
Qed.
Lemma displays_root i n e : displays n e -> el_id e = i -> has_id (dec i) n = true.
Proof. intros H <-. inversion H; subst. unfold has_id. cbn [node_id el_id]. rewrite H0. apply str_eqb_refl. Qed.

Section Browser.
Context (reparse : str -> str -> list node -> list node).
Notation js_exec := (js_exec reparse).

(** [jruns S os F F']: executing [os] on the forest [F] gives [F'], looking up only ids of [S]. *)
Inductive jruns (S : N -> Prop) : list op -> list node -> list node -> Prop :=
| jr_nil F : jruns S [] F F
| jr_cons o os i f F F1 F2 : (forall doc, js_exec (js_op o) doc = by_id (dec i) f doc) -> S i ->
    by_id (dec i) f F = Some F1 -> jruns S os F1 F2 -> jruns S (o :: os) F F2
| jr_skip o os F F2 : (forall doc, js_exec (js_op o) doc = Some doc) -> jruns S os F F2 -> jruns S (o :: os) F F2.
Lemma jruns_run S os F F' : jruns S os F F' -> js_run reparse (map js_op os) F = (F', true).
Proof.
  induction 1 as [|o os i f F F1 F2 H1 _ H2 _ IH|o os F F2 H1 _ IH]; cbn [map js_run]; [reflexivity| |].
  - now rewrite H1, H2.
  - now rewrite H1.
Qed.
Lemma jruns_app S os1 os2 F1 F2 F3 : jruns S os1 F1 F2 -> jruns S os2 F2 F3 -> jruns S (os1 ++ os2) F1 F3.
Proof. induction 1; intros H'; cbn [app]; [exact H'|eapply jr_cons; eauto|eapply jr_skip; eauto]. Qed.
Lemma jruns_mono (S S' : N -> Prop) os F F' : (forall i, S i -> S' i) -> jruns S os F F' -> jruns S' os F F'.
Proof. intros HS. induction 1; [constructor|eapply jr_cons; eauto|eapply jr_skip; eauto]. Qed.
Lemma jruns_lift (S S' : N -> Prop) os F F' t a l L1 L2 : jruns S os F F' ->
  (forall i, S i -> get attr_id a <> Some (dec i) /\ ~ In (dec i) (flat_map nids L1)) -> (forall i, S i -> S' i) ->
  jruns S' os [Elem t a l (L1 ++ F ++ L2)] [Elem t a l (L1 ++ F' ++ L2)].
Proof.
  intros H Hav HS. induction H as [|o os i f F F1 F2 H1 Si H2 _ IH|o os F F2 H1 _ IH]; [constructor| |].
  - destruct (Hav i Si) as [A B]. eapply jr_cons; [exact H1|now apply HS| |exact IH]. now apply by_id_lift.
  - eapply jr_skip; [exact H1|exact IH].
Qed.

(* ------------------------------------------------------------------ *)
(** ** Single instructions *)

Lemma exec_text i v doc : js_exec (js_op (Op i (SetText v))) doc =
  by_id i (fun n => match n with Elem t a l kids => Some [Elem t a l (text_nodes v)] | Text _ => None end) doc.
Proof. reflexivity. Qed.
Lemma exec_attr i k v doc : clean_name k -> plus_free k -> js_exec (js_op (Op i (SetAttribute k v))) doc =
  by_id i (fun n => match n with Elem t a l kids => Some [Elem t (insert k (cut v) a) l kids] | Text _ => None end) doc.
Proof.
  intros [Hv Hl] Pk. transitivity (by_id i (fun n => match n, part 0 (k ++ plus :: v) with
        | Elem t a l kids, Some k0 =>
            if valid_name k0
            then Some [Elem t (insert (to_lower k0) (match part 1 (k ++ plus :: v) with Some v => v | None => bs "undefined" end) a) l kids]
            else None
        | _, _ => None end) doc); [reflexivity|]. rewrite part0, part1_cut, Hv, Hl by assumption. reflexivity.
Qed.
Lemma exec_remove i k doc : clean_name k -> js_exec (js_op (Op i (RemoveAttribute k))) doc =
  by_id i (fun n => match n with Elem t a l kids => Some [Elem t (remove k a) l kids] | Text _ => None end) doc.
Proof.
  intros [_ Hl]. transitivity (by_id i (fun n => match n with Elem t a l kids => Some [Elem t (remove (to_lower k) a) l kids] | Text _ => None end) doc);
    [reflexivity|]. now rewrite Hl.
Qed.
Lemma exec_name i k doc : clean_name k -> js_exec (js_op (Op i (SetTagName k))) doc =
  by_id i (fun n => match n with Elem t a l kids => Some [Elem k a [] (reparse t k kids)] | Text _ => None end) doc.
Proof.
  intros [Hv Hl]. transitivity (by_id i (fun n => match n with Elem t a l kids => if valid_name k then Some [Elem (to_lower k) a [] (reparse t (to_lower k) kids)] else None | Text _ => None end) doc);
    [reflexivity|]. now rewrite Hl, Hv.
Qed.
Lemma exec_attach i n e doc : plus_free n -> js_exec (js_op (Op i (AttachListener n e))) doc =
  by_id i (fun x => match x with Elem t a l kids => Some [Elem t a (l ++ [(cut e, n)]) kids] | Text _ => None end) doc.
Proof.
  intros P1. transitivity (by_id i (fun x => match x, part 0 (n ++ plus :: e), part 1 (n ++ plus :: e) with
        | Elem t a l kids, Some name, Some ev => Some [Elem t a (l ++ [(ev, name)]) kids]
        | _, _, _ => None end) doc); [reflexivity|]. now rewrite part0, part1_cut by assumption.
Qed.
Lemma exec_clear i doc : js_exec (js_op (Op i RemoveListeners)) doc = by_id i (fun n => Some [clone n]) doc.
Proof. reflexivity. Qed.
Lemma exec_delete i doc : js_exec (js_op (Op i DeleteEl)) doc = by_id i (fun n => Some []) doc.
Proof. reflexivity. Qed.
Lemma exec_id i v doc : js_exec (js_op (Op i (SetId v))) doc =
  by_id i (fun n => match n with Elem t a l kids => Some [Elem t (insert attr_id v a) l kids] | Text _ => None end) doc.
Proof. reflexivity. Qed.
Lemma exec_remove_text i doc : js_exec (js_op (Op i RemoveText)) doc = Some doc.
Proof. reflexivity. Qed.
Lemma name_plus_free k : valid_name k = true -> plus_free k.
Proof.
  assert (forall b, name_char b = true -> b <> plus) as Hc. { intros b H ->. vm_compute in H. discriminate. }
  destruct k as [|b r]; [discriminate|]. cbn [valid_name]. intros H. apply andb_true_iff in H as [H1 H2]. rewrite forallb_forall in H2.
  intros [E|E].
  - subst b. vm_compute in H1. discriminate.
  - apply H2 in E. now apply Hc in E.
Qed.
Lemma dec_plus_free i : plus_free (dec i).
Proof.
  intros H. pose proof (dec_digits i) as D. rewrite Forall_forall in D. apply D in H. unfold is_digit in H. vm_compute in H. destruct H as [H _]. now apply H.
Qed.
Lemma exec_create i name p doc : clean_name name -> js_exec (js_op (Op i (CreateTag name (Some (dec p))))) doc =
  by_id (dec p) (fun n => match n with Elem t a l kids => Some [Elem t a l (kids ++ [Elem name [(attr_id, i)] [] []])] | Text _ => None end) doc.
Proof.
  intros [Hv Hl]. pose proof (name_plus_free _ Hv) as Pf.
  transitivity (match part 0 (name ++ plus :: dec p) with
        | None => None
        | Some name =>
            match make_el name i with
            | None => None
            | Some el =>
                match part 1 (name ++ plus :: dec p) with
                | None | Some [] => Some (doc ++ [el])
                | Some q => by_id q (fun n => match n with
                    | Elem t a l kids => Some [Elem t a l (kids ++ [el])]
                    | Text _ => None end) doc
                end
            end
        end); [unfold ClientModel.js_exec, js_op; cbn [js_ty js_el js_payload op_id op_instr op_ty op_payload]|].
  { change (str_eqb (bs "createTag") (bs "createTag")) with true. cbv iota.
    rewrite part0 by exact Pf. destruct (make_el name i); [|reflexivity]. reflexivity. }
  rewrite part0 by exact Pf. unfold make_el. rewrite Hv, Hl. rewrite part1 by (auto using dec_plus_free).
  pose proof (dec_nonempty p) as Hd. destruct (dec p); [congruence|reflexivity].
Qed.
Lemma exec_create_root i name doc : clean_name name -> js_exec (js_op (Op i (CreateTag name None))) doc = Some (doc ++ [Elem name [(attr_id, i)] [] []]).
Proof.
  intros [Hv Hl]. pose proof (name_plus_free _ Hv) as Pf. unfold ClientModel.js_exec, js_op. cbn [js_ty js_el js_payload op_id op_instr op_ty op_payload].
  change (str_eqb (bs "createTag") (bs "createTag")) with true. cbv iota. rewrite part0 by exact Pf. unfold make_el. rewrite Hv, Hl.
  rewrite part1; [reflexivity|exact Pf|intros []].
Qed.

Lemma jr_own (S : N -> Prop) o os i f n n' F : (forall doc, js_exec (js_op o) doc = by_id (dec i) f doc) -> S i ->
  has_id (dec i) n = true -> f n = Some [n'] -> jruns S os [n'] F -> jruns S (o :: os) [n] F.
Proof. intros H1 Si Hi Hf Hr. eapply jr_cons; [exact H1|exact Si| |exact Hr]. rewrite by_id_root by exact Hi. now rewrite Hf. Qed.

(** The browser's attributes of an element: those of the element, and its id. *)
Definition amap (i : N) (m m0 : hmap str) : Prop := get attr_id m = Some (dec i) /\ forall q, q <> attr_id -> get q m = option_map cut (get q m0).
Lemma amap_id i m m0 t l kids : amap i m m0 -> has_id (dec i) (Elem t m l kids) = true.
Proof. intros [H _]. unfold has_id. cbn [node_id]. rewrite H. apply str_eqb_refl. Qed.
Lemma amap_equiv i m m0 m1 : amap i m m0 -> hm_equiv m0 m1 -> amap i m m1.
Proof. intros [H1 H2] E. split; [exact H1|]. intros q Hq. now rewrite H2, E. Qed.

Definition attr_ok (ins : instr) : Prop :=
  match ins with
  | SetAttribute k v => clean_name k /\ k <> attr_id
  | RemoveAttribute k => clean_name k /\ k <> attr_id
  | _ => False
  end.
Lemma attrs_jruns (S : N -> Prop) i l : Forall attr_ok l -> S i -> forall n ls cs t k m0 m0' tag m L kids,
  owns l (Element i n m0 ls cs t k) = Some (Element i n m0' ls cs t k) -> amap i m m0 ->
  exists m', amap i m' m0' /\ jruns S (map (Op (dec i)) l) [Elem tag m L kids] [Elem tag m' L kids].
Proof.
  intros Hl Si. induction Hl as [|ins l Hi Hl IH]; intros n ls cs t k m0 m0' tag m L kids Ho Hm.
  - cbn [owns] in Ho. injection Ho as <-. exists m. split; [exact Hm|constructor].
  - destruct ins; try contradiction; cbn [owns own with_attrs el_attrs] in Ho.
    + destruct Hi as (C1 & C2). destruct (IH _ _ _ _ _ _ _ tag (insert key (cut value) m) L kids Ho) as (m' & Hm' & R).
      { destruct Hm as [M1 M2]. split.
        - rewrite get_insert. destruct (str_eqb attr_id key) eqn:E; [apply str_eqb_eq in E; congruence|exact M1].
        - intros q Hq. rewrite !get_insert. destruct (str_eqb q key); [reflexivity|now apply M2]. }
      exists m'. split; [exact Hm'|]. cbn [map]. eapply jr_own; [|exact Si|eapply amap_id; exact Hm| |exact R].
      * intros doc. apply exec_attr; auto. apply name_plus_free. apply C1.
      * reflexivity.
    + destruct Hi as (C1 & C2). destruct (IH _ _ _ _ _ _ _ tag (remove key m) L kids Ho) as (m' & Hm' & R).
      { destruct Hm as [M1 M2]. split.
        - rewrite get_remove. destruct (str_eqb attr_id key) eqn:E; [apply str_eqb_eq in E; congruence|exact M1].
        - intros q Hq. rewrite !get_remove. destruct (str_eqb q key); [reflexivity|now apply M2]. }
      exists m'. split; [exact Hm'|]. cbn [map]. eapply jr_own; [|exact Si|eapply amap_id; exact Hm| |exact R].
      * intros doc. now apply exec_remove.
      * reflexivity.
Qed.
Definition lmap (l : list listener) : list (str * str) := map (fun x => (cut (l_event x), l_name x)) l.
Lemma attach_jruns (S : N -> Prop) i ls : Forall (fun l => plus_free (l_name l)) ls -> S i ->
  forall tag m m0 L kids, amap i m m0 ->
  jruns S (map (Op (dec i)) (map (fun x => AttachListener (l_name x) (l_event x)) ls)) [Elem tag m L kids] [Elem tag m (L ++ lmap ls) kids].
Proof.
  intros Hl Si. induction Hl as [|x ls P1 _ IH]; intros tag m m0 L kids Hm.
  - cbn. rewrite app_nil_r. constructor.
  - cbn [map]. eapply jr_own; [|exact Si|eapply amap_id; exact Hm| |].
    + intros doc. now apply exec_attach.
    + reflexivity.
    + cbn [lmap map]. specialize (IH tag m m0 (L ++ [(cut (l_event x), l_name x)]) kids Hm). rewrite <- app_assoc in IH. exact IH.
Qed.

Lemma quiet_clone e : forall n, displays n e -> quiet e -> clone n = n.
Proof.
  induction e as [i nm a l cs t k IH] using element_ind2. intros n H Q. inversion H as [? ? ? ? ? ? ? m kids Hi Ha Hk]; subst.
  pose proof (every_root _ _ Q) as Ql. pose proof (every_children _ _ Q) as Qc. cbn [el_listeners el_children] in *. subst l. cbn [clone map].
  f_equal. rewrite map_app. f_equal; [now destruct (text_of t)|].
  clear -IH Hk Qc. revert kids Hk. induction IH as [|c cs Hc _ IHcs]; intros kids Hk; inversion Hk; subst; [reflexivity|].
  inversion Qc; subst. cbn [map]. f_equal; auto.
Qed.
Lemma quiet_clones cs kids : Forall2 displays kids cs -> Forall quiet cs -> map clone kids = kids.
Proof.
  induction 1 as [|n e ns es H _ IH]; intros Q; [reflexivity|]. inversion Q; subst. cbn [map]. f_equal; [now apply (quiet_clone e)|auto].
Qed.

Lemma in_diff_attributes a b o : In o (diff_attributes a b) ->
  (exists k, o = Op (id_str a) (RemoveAttribute k) /\ In k (keys (el_attrs a))) \/
  (exists k v, o = Op (id_str a) (SetAttribute k v) /\ In (k, v) (el_attrs b)).
Proof.
  unfold diff_attributes. destruct (hm_eqb _ _); [intros []|]. intros H. apply in_app_or in H as [H|H]; apply in_flat_map in H as (x & Hx & Ho).
  - destruct (contains_key x (el_attrs b)); [destruct Ho|]. destruct Ho as [<-|[]]. left. now exists x.
  - right. exists (fst x), (snd x). destruct x as [k v]. cbn [fst snd] in *.
    destruct (get k (el_attrs a)) as [mine|]; [destruct (str_eqb mine v); [destruct Ho|]|]; destruct Ho as [<-|[]]; auto.
Qed.

Lemma text_nodes_nil t : text_of t = [] -> text_nodes (text_of t) = [].
Proof. intros ->. reflexivity. Qed.

(** Renaming a node: its content is serialised and parsed again. *)
Lemma cut_plain v : plain_chars v -> plain_chars (cut v).
Proof.
  assert (forall b, In b (cut v) -> In b v) as H; [|unfold plain_chars; intuition].
  induction v as [|c v IH]; intros b Hb; [destruct Hb|]. cbn [cut] in Hb. destruct (byte_eqb c plus); [destruct Hb|]. destruct Hb as [<-|Hb]; [now left|right; auto].
Qed.
Lemma quiet_copy e : forall n, displays n e -> quiet e -> displays (copy n) e.
Proof.
  induction e as [i nm a l cs t k IH] using element_ind2. intros n H Q. inversion H as [? ? ? ? ? ? ? m kids Hi Ha Hk]; subst.
  pose proof (every_root _ _ Q) as Ql. pose proof (every_children _ _ Q) as Qc. cbn [el_listeners el_children] in *. subst l. cbn [copy map].
  rewrite map_app. assert (map copy (text_nodes (text_of t)) = text_nodes (text_of t)) as -> by (now destruct (text_of t)).
  change (@nil (str * str)) with (map (fun x => (cut (l_event x), l_name x)) (@nil listener)). constructor.
  - now rewrite get_entries.
  - intros q Hq. rewrite get_entries. now apply Ha.
  - clear -IH Hk Qc. revert kids Hk. induction IH as [|c cs Hc _ IHcs]; intros kids Hk; inversion Hk; subst; [constructor|].
    inversion Qc; subst. cbn [map]. constructor; auto.
Qed.
Lemma quiet_copies cs kids : Forall2 displays kids cs -> Forall quiet cs -> Forall2 displays (map copy kids) cs.
Proof.
  induction 1 as [|n e ns es H _ IH]; intros Q; [constructor|]. inversion Q; subst. cbn [map]. constructor; [now apply quiet_copy|auto].
Qed.
Lemma copy_text s : map copy (text_nodes s) = text_nodes s.
Proof. now destruct s. Qed.
Lemma displays_spaced s kids cs : Forall2 displays kids cs -> spaced (text_nodes s ++ kids) = true.
Proof.
  intros H. assert (spaced kids = true) as Hk.
  { induction H as [|n e ns es H _ IH]; [reflexivity|]. inversion H; subst. exact IH. }
  destruct s as [|b s]; [exact Hk|]. cbn [text_nodes app spaced]. destruct H as [|n e ns es H _]; [reflexivity|]. inversion H; subst. exact Hk.
Qed.
Lemma text_nests f st s : plain_chars s -> Forall (nests f st) (text_nodes s).
Proof. intros H. destruct s; constructor; [exact H|constructor]. Qed.
Lemma nestable_eq f st e : nestable f st e <->
  opens f st (el_name e) = true /\ Forall (fun kv => plain_chars (snd kv)) (el_attrs e) /\ plain_chars (text_of (el_text e)) /\
  (among void_tags (el_name e) = true -> text_of (el_text e) = [] /\ el_children e = []) /\ Forall (nestable f (el_name e :: st)) (el_children e).
Proof.
  destruct e as [i n a l cs t k]. cbn [nestable el_name el_attrs el_text el_children].
  assert ((fix all (es : list element) : Prop := match es with [] => True | c :: r => nestable f (n :: st) c /\ all r end) cs <-> Forall (nestable f (n :: st)) cs) as ->; [|tauto].
  induction cs as [|c cs IH]; [split; constructor|]. rewrite IH. split; [intros [H1 H2]; now constructor|]. intros H. inversion H; auto.
Qed.
Lemma displays_nests e : forall n f st, displays n e -> neat e -> nestable f st e -> nests f st n.
Proof.
  induction e as [i nm a l cs t k IH] using element_ind2. intros n f st H C H0. inversion H as [? ? ? ? ? ? ? m kids Hi Ha Hk]; subst.
  apply nestable_eq in H0 as (N1 & N2 & N3 & N4 & N5). cbn [el_name el_attrs el_text el_children] in *.
  pose proof (every_root _ _ C) as (_ & CA & _). pose proof (every_children _ _ C) as CC. cbn [el_attrs el_children] in *.
  apply nests_elem. split; [exact N1|]. split; [|split; [now apply displays_spaced with (cs := cs)|split]].
  - apply Forall_forall. intros [q v] Hin. apply in_entries in Hin. unfold attr_fine. cbn [fst snd].
    destruct (str_eqb q attr_id) eqn:Eq.
    + apply str_eqb_eq in Eq. subst q. rewrite Hi in Hin. injection Hin as <-. split; [reflexivity|]. split; [reflexivity|].
      pose proof (dec_digits i) as D. rewrite Forall_forall in D. split; intros Hb; apply D in Hb; vm_compute in Hb; destruct Hb as [Hb _]; now apply Hb.
    + assert (q <> attr_id) as Hq by (intros ->; now rewrite str_eqb_refl in Eq). rewrite Ha in Hin by exact Hq.
      destruct (get q a) as [w|] eqn:Eg; [|discriminate]. injection Hin as <-. apply get_some_in in Eg.
      rewrite Forall_forall in CA, N2. destruct (CA _ Eg) as [[V1 V2] _]. cbn [fst] in *. split; [exact V1|]. split; [exact V2|]. apply cut_plain. exact (N2 _ Eg).
  - intros Hv. destruct (N4 Hv) as [E1 E2]. rewrite E1. subst cs. inversion Hk. reflexivity.
  - apply Forall_app. split; [now apply text_nests|]. clear -IH Hk CC N5. revert kids Hk. induction IH as [|c cs Hc _ IHcs]; intros kids Hk; inversion Hk; subst; [constructor|].
    inversion CC; inversion N5; subst. constructor; auto.
Qed.
Lemma displays_nest_all f st cs kids : Forall2 displays kids cs -> Forall neat cs -> Forall (nestable f st) cs -> Forall (nests f st) kids.
Proof.
  induction 1 as [|n e ns es H _ IH]; intros C N; [constructor|]. inversion C; inversion N; subst. constructor; [eapply displays_nests; eassumption|auto].
Qed.

(** The instructions for a node's own fields. *)
Lemma own_jruns (S : N -> Prop) a b m kids : standard reparse ->
  hm_wf (el_attrs a) -> hm_wf (el_attrs b) -> neat a -> neat b -> browser_pair a b ->
  (el_id a = el_id b \/ (el_name a = el_name b /\ el_listeners a = el_listeners b)) -> S (el_id a) ->
  amap (el_id a) m (el_attrs a) -> Forall2 displays kids (el_children a) ->
  exists m' kids', amap (el_id a) m' (el_attrs b) /\ Forall2 displays kids' (el_children a) /\
    jruns S (diff_own a b) [Elem (el_name a) m (lmap (el_listeners a)) (text_nodes (text_of (el_text a)) ++ kids)]
                           [Elem (el_name b) m' (lmap (el_listeners b)) (text_nodes (text_of (el_text b)) ++ kids')].
Proof.
  intros Hrep Wa Wb Ca Cb (BN & BT & BL) Hid Si Hm Hk.
  pose proof (every_root _ _ Ca) as (_ & CAa & _). pose proof (every_root _ _ Cb) as (CNb & CAb & CLb).
  (* the state after the renaming *)
  assert (exists L K kids', jruns S (diff_name a b) [Elem (el_name a) m (lmap (el_listeners a)) (text_nodes (text_of (el_text a)) ++ kids)] [Elem (el_name b) m L K] /\
    Forall2 displays kids' (el_children a) /\
    ((L = lmap (el_listeners a) \/ (L = [] /\ (el_listeners a = [] \/ el_listeners a <> el_listeners b))) /\
     (K = text_nodes (text_of (el_text a)) ++ kids' \/ (exists v, el_text b = Some v /\ el_text a <> Some v /\ kids' = [])))) as (L & K & kids' & R1 & Hk' & HL & HK).
  { unfold diff_name. destruct (str_eqb (el_name a) (el_name b)) eqn:E.
    - apply str_eqb_eq in E. rewrite E. eexists _, _, kids. split; [constructor|]. split; [exact Hk|]. split; now left.
    - destruct Hid as [Hid|[Hn _]]; [|rewrite Hn, str_eqb_refl in E; discriminate].
      destruct BN as [BN|(B0 & B3 & BN)]; [rewrite BN, str_eqb_refl in E; discriminate|].
      assert (forall K, reparse (el_name a) (el_name b) (text_nodes (text_of (el_text a)) ++ kids) = K ->
        jruns S [Op (id_str b) (SetTagName (el_name b))] [Elem (el_name a) m (lmap (el_listeners a)) (text_nodes (text_of (el_text a)) ++ kids)] [Elem (el_name b) m [] K]) as HR.
      { intros K <-. unfold id_str. rewrite <- Hid. eapply jr_own; [|exact Si|eapply amap_id; exact Hm| |constructor].
        - intros doc. now apply exec_name.
        - reflexivity. }
      destruct BN as [[B1 B2]|[B1 B2]].
      + rewrite B1 in Hk. inversion Hk; subst kids. eexists _, _, []. split; [now apply HR|]. split; [rewrite B1; constructor|].
        split; [right; auto|]. destruct B2 as [B2|(v & B2 & B2')].
        * left. rewrite B2. cbn [text_nodes app]. apply Hrep. unfold inner_html, html_parse. destruct (_ || _); cbn [flat_map];
            (destruct (str_eqb (el_name b) (bs "html")) eqn:Eh; [apply str_eqb_eq in Eh; congruence|reflexivity]).
        * right. exists v. auto.
      + exists [], (text_nodes (text_of (el_text a)) ++ map copy kids), (map copy kids). split; [|split; [now apply quiet_copies|split; [right; auto|now left]]].
        apply HR. apply Hrep. destruct B2 as (K1 & K2 & K3 & K4 & K5). rewrite html_copy; auto.
        * now rewrite map_app, copy_text.
        * apply displays_spaced with (cs := el_children a). exact Hk.
        * apply Forall_app. split; [now apply text_nests|]. eapply displays_nest_all; [exact Hk|exact (every_children _ _ Ca)|exact K5]. }
  (* attributes *)
  destruct (diff_attributes_spec a b Wa Wb) as (l2 & E2 & H2).
  assert (Forall attr_ok l2) as Hl2.
  { apply Forall_forall. intros ins Hin. assert (In (Op (id_str a) ins) (diff_attributes a b)) as Hd by (rewrite E2; now apply in_map).
    apply in_diff_attributes in Hd as [(k & [= ->] & Hk2)|(k & v & [= ->] & Hk2)].
    - unfold keys in Hk2. apply in_map_iff in Hk2 as ([k' v] & <- & Hk2). rewrite Forall_forall in CAa. apply CAa in Hk2. cbn in *. tauto.
    - rewrite Forall_forall in CAb. apply CAb in Hk2. cbn in *. tauto. }
  destruct (H2 (el_id a) (el_name a) (el_attrs a) [] [] None None (hm_equiv_refl _)) as (m1 & O2 & Em1).
  destruct (attrs_jruns S (el_id a) l2 Hl2 Si _ _ _ _ _ _ _ (el_name b) m L K O2 Hm) as (m' & Hm' & R2).
  apply (amap_equiv _ _ _ _ Hm') in Em1. clear Hm'. exists m', kids'. split; [exact Em1|]. split; [exact Hk'|].
  (* text *)
  assert (jruns S (diff_text a b) [Elem (el_name b) m' L K] [Elem (el_name b) m' L (text_nodes (text_of (el_text b)) ++ kids')]) as R3.
  { unfold diff_text. destruct (text_eqb (el_text a) (el_text b)) eqn:E.
    - apply text_eqb_eq in E. destruct HK as [->|(v & K1 & K2 & _)]; [rewrite E; constructor|congruence].
    - destruct (el_text b) as [v|] eqn:Eb.
      + assert (kids' = []) as ->.
        { destruct HK as [_|(w & _ & _ & ->)]; [|reflexivity]. destruct BT as [BT|[(w & _ & BT)|[BT _]]]; [rewrite BT in E; rewrite (proj2 (text_eqb_eq _ _) eq_refl) in E; discriminate| |discriminate].
          rewrite BT in Hk'. now inversion Hk'. }
        rewrite app_nil_r. eapply jr_own; [|exact Si|eapply amap_id; exact Em1| |constructor].
        * intros doc. apply exec_text.
        * reflexivity.
      + eapply jr_skip; [intros; apply exec_remove_text|]. destruct HK as [->|(v & K1 & _)]; [|discriminate].
        destruct BT as [BT|[(w & BT & _)|[_ BT]]]; [rewrite BT in E; discriminate|discriminate|]. rewrite BT. constructor. }
  (* listeners *)
  assert (jruns S (diff_listeners a b) [Elem (el_name b) m' L (text_nodes (text_of (el_text b)) ++ kids')]
            [Elem (el_name b) m' (lmap (el_listeners b)) (text_nodes (text_of (el_text b)) ++ kids')]) as R4.
  { unfold diff_listeners. destruct (listeners_eqb (el_listeners a) (el_listeners b)) eqn:E.
    - apply listeners_eqb_eq in E. destruct HL as [->|(-> & [HL|HL])]; [rewrite E; constructor| |congruence].
      rewrite <- E, HL. constructor.
    - destruct Hid as [Hid|[_ Hl]]; [|apply listeners_eqb_eq in Hl; congruence].
      assert (map clone kids' = kids') as Hcl.
      { destruct BL as [BL|BL]; [apply listeners_eqb_eq in BL; congruence|]. now apply (quiet_clones (el_children a)). }
      eapply jr_own; [|exact Si|eapply amap_id; exact Em1| |].
      + intros doc. apply exec_clear.
      + cbn [clone]. reflexivity.
      + rewrite map_app, Hcl. assert (map clone (text_nodes (text_of (el_text b))) = text_nodes (text_of (el_text b))) as -> by (now destruct (text_of (el_text b))).
        unfold generate_listeners, id_str. rewrite <- Hid.
        pose proof (attach_jruns S (el_id a) (el_listeners b) CLb Si (el_name b) m' (el_attrs b) [] (text_nodes (text_of (el_text b)) ++ kids') Em1) as R.
        rewrite map_map in R. exact R. }
  unfold diff_own. eapply jruns_app; [exact R1|]. eapply jruns_app; [rewrite E2; exact R2|]. eapply jruns_app; [exact R3|exact R4].
Qed.

(* ------------------------------------------------------------------ *)
(** ** Creation *)

Definition navoids (l : list N) (root : N) (done : list node) : Prop :=
  forall i, In i l -> i <> root /\ ~ In (dec i) (flat_map nids done).

Definition jcreates (d : element) : Prop :=
  NoDup (ids d) -> every (fun e => hm_wf (el_attrs e)) d -> neat d ->
  forall (S : N -> Prop) r tag m m0 l K, amap r m m0 -> navoids (ids d) r K -> S r -> (forall i, In i (ids d) -> S i) ->
    exists d', displays d' d /\ jruns S (create_from_scratch d (Some (dec r))) [Elem tag m l K] [Elem tag m l (K ++ [d'])].

Lemma jcreates_list ds : Forall jcreates ds -> NoDup (ids_of ds) -> Forall (every (fun e => hm_wf (el_attrs e))) ds -> Forall neat ds ->
  forall (S : N -> Prop) r tag m m0 l K, amap r m m0 -> navoids (ids_of ds) r K -> S r -> (forall i, In i (ids_of ds) -> S i) ->
    exists ds', Forall2 displays ds' ds /\ jruns S (flat_map (fun c => create_from_scratch c (Some (dec r))) ds) [Elem tag m l K] [Elem tag m l (K ++ ds')].
Proof.
  induction 1 as [|d ds Hd _ IH]; intros Hnd Hw Hc S r tag m m0 l K Hm Hav Sr Sd.
  - exists []. split; [constructor|]. cbn [flat_map]. rewrite app_nil_r. constructor.
  - inversion Hc as [|? ? P1 P2]; subst. inversion Hw as [|? ? W1 W2]; subst. rewrite ids_of_cons in *.
    assert (NoDup (ids d)) as N1 by (apply nodup_app_iff in Hnd; tauto).
    assert (NoDup (ids_of ds)) as N2 by (apply nodup_app_iff in Hnd; tauto).
    destruct (Hd N1 W1 P1 S r tag m m0 l K Hm) as (d' & V & R); auto.
    { intros i Hi. apply Hav. apply in_or_app. now left. }
    { intros i Hi. apply Sd. apply in_or_app. now left. }
    destruct (IH N2 W2 P2 S r tag m m0 l (K ++ [d']) Hm) as (ds' & Vs & Rs); auto.
    { intros i Hi. destruct (Hav i) as [H1 H2]; [apply in_or_app; now right|]. split; [exact H1|].
      rewrite flat_map_app, in_app_iff. cbn [flat_map]. rewrite app_nil_r, (displays_nids _ _ V), in_map_dec. intros [H|H]; [now apply H2|].
      apply nodup_app_iff in Hnd as (_ & _ & Hnd). exact (Hnd i H Hi). }
    { intros i Hi. apply Sd. apply in_or_app. now right. }
    exists (d' :: ds'). split; [now constructor|]. cbn [flat_map]. eapply jruns_app; [exact R|].
    rewrite <- app_assoc in Rs. exact Rs.
Qed.

(** The instructions after the creation of an empty element. *)
Lemma fill_runs i nm at_ ls cs tx ky (S : N -> Prop) : Forall jcreates cs ->
  NoDup (ids (Element i nm at_ ls cs tx ky)) -> every (fun e => hm_wf (el_attrs e)) (Element i nm at_ ls cs tx ky) -> neat (Element i nm at_ ls cs tx ky) ->
  (forall j, In j (ids (Element i nm at_ ls cs tx ky)) -> S j) ->
  exists d', displays d' (Element i nm at_ ls cs tx ky) /\
  jruns S (map (Op (dec i)) (map (fun kv => SetAttribute (fst kv) (snd kv)) at_ ++ map (fun x => AttachListener (l_name x) (l_event x)) ls
                    ++ match tx with Some v => [SetText v] | None => [] end)
           ++ flat_map (fun c => create_from_scratch c (Some (dec i))) cs) [Elem nm [(attr_id, dec i)] [] []] [d'].
Proof.
  intros IH Hnd Hw Hc Sd.
  pose proof (every_root _ _ Hc) as (CN & CA & CL). pose proof (every_children _ _ Hc) as Hcc. pose proof (every_root _ _ Hw) as Hwf. pose proof (every_children _ _ Hw) as Hwc.
  cbn [el_name el_attrs el_listeners el_children] in *.
  cbn [ids] in Hnd. inversion Hnd as [|? ? Hni Hndc]; subst.
  assert (S i) as Si by (apply Sd; now left).
  assert (amap i [(attr_id, dec i)] []) as Hm0.
  { split; [reflexivity|]. intros q Hq. cbn [get]. destruct (str_eqb q attr_id) eqn:E; [apply str_eqb_eq in E; congruence|reflexivity]. }
  destruct (attrs_jruns S i (map (fun kv => SetAttribute (fst kv) (snd kv)) at_)) with (n := nm) (ls := @nil listener) (cs := @nil element) (t := @None str) (k := @None str)
     (m0 := @nil (str * str)) (m0' := extend [] at_) (tag := nm) (m := [(attr_id, dec i)]) (L := @nil (str * str)) (kids := @nil node) as (m' & Hm' & R1); auto.
  { apply Forall_forall. intros ins Hin. apply in_map_iff in Hin as ([k v] & <- & Hin). rewrite Forall_forall in CA. apply CA in Hin. cbn in *. tauto. }
  { apply owns_set_attrs. }
  rewrite extend_nodup in Hm' by exact Hwf.
  pose proof (attach_jruns S i ls CL Si nm m' at_ [] [] Hm') as R2. cbn [app] in R2.
  assert (jruns S (map (Op (dec i)) (match tx with Some v => [SetText v] | None => [] end)) [Elem nm m' (lmap ls) []] [Elem nm m' (lmap ls) (text_nodes (text_of tx))]) as R3.
  { destruct tx as [v|]; cbn [map text_of text_nodes]; [|constructor]. eapply jr_own; [|exact Si|eapply amap_id; exact Hm'| |constructor].
    - intros doc. apply exec_text.
    - reflexivity. }
  destruct (jcreates_list cs IH Hndc Hwc Hcc S i nm m' at_ (lmap ls) (text_nodes (text_of tx)) Hm') as (cs' & Vs & R4); auto.
  { intros j Hj. split; [intros ->; now apply Hni|]. destruct (text_of tx); intros []. }
  { intros j Hj. apply Sd. now right. }
  exists (Elem nm m' (lmap ls) (text_nodes (text_of tx) ++ cs')). split.
  { destruct Hm'. now constructor. }
  rewrite !map_app. eapply jruns_app; [|exact R4]. eapply jruns_app; [exact R1|]. eapply jruns_app; [exact R2|exact R3].
Qed.

Lemma jcreate_runs d : jcreates d.
Proof.
  induction d as [i nm at_ ls cs tx ky IH] using element_ind2. intros Hnd Hw Hc S r tag m m0 l K Hm Hav Sr Sd.
  rewrite create_eq. pose proof (every_root _ _ Hc) as (CN & _). cbn [el_name] in CN.
  destruct (fill_runs i nm at_ ls cs tx ky (fun j => In j (ids (Element i nm at_ ls cs tx ky))) IH Hnd Hw Hc) as (d' & V & R); auto.
  exists d'. split; [exact V|].
  eapply jr_own; [intros doc; now apply exec_create|exact Sr|eapply amap_id; exact Hm|reflexivity|].
  rewrite <- (app_nil_r (K ++ [_])), <- app_assoc. rewrite <- (app_nil_r (K ++ [d'])), <- app_assoc.
    eapply jruns_lift; [exact R| |exact Sd]. intros j Hj. destruct (Hav j Hj) as [H1 H2]. split; [|exact H2].
    destruct Hm as [Hm _]. rewrite Hm. intros [= E]. apply dec_inj in E. congruence.
Qed.

(* ------------------------------------------------------------------ *)
(** ** Deletion *)

Lemma jdelete_runs (S : N -> Prop) r tag m m0 l L1 x c L2 : amap r m m0 -> displays x c -> el_id c <> r -> ~ In (dec (el_id c)) (flat_map nids L1) ->
  S (el_id c) -> jruns S [Op (id_str c) DeleteEl] [Elem tag m l (L1 ++ x :: L2)] [Elem tag m l (L1 ++ L2)].
Proof.
  intros Hm Hx Hne Hni Sc. change (L1 ++ x :: L2) with (L1 ++ [x] ++ L2). change (L1 ++ L2) with (L1 ++ [] ++ L2).
  apply (jruns_lift (fun i => i = el_id c)).
  - eapply jr_cons with (i := el_id c); [intros; apply exec_delete|reflexivity| |constructor].
    rewrite by_id_root; [reflexivity|]. now apply (displays_root _ _ _ Hx).
  - intros i ->. split; [|exact Hni]. destruct Hm as [Hm _]. rewrite Hm. intros [= E]. apply dec_inj in E. congruence.
  - intros i ->. exact Sc.
Qed.
Lemma jdeletes_runs (S : N -> Prop) r tag m m0 l L1 cs xs : amap r m m0 ->
  Forall2 displays xs cs -> Forall (fun c => el_id c <> r /\ ~ In (dec (el_id c)) (flat_map nids L1)) cs ->
  (forall i, In i (ids_of cs) -> S i) ->
  jruns S (map (fun c => Op (id_str c) DeleteEl) cs) [Elem tag m l (L1 ++ xs)] [Elem tag m l L1].
Proof.
  intros Hm Hv Hf. induction Hv as [|x c xs cs Hx Hv IH]; intros SL.
  - cbn [map]. rewrite app_nil_r in *. constructor.
  - inversion Hf as [|? ? (F1 & F2) F']; subst. cbn [map].
    change (?o :: ?l) with ([o] ++ l). apply (jruns_app S _ _ _ [Elem tag m l (L1 ++ xs)]).
    + eapply jdelete_runs; eauto. apply SL. rewrite ids_of_cons. apply in_or_app. left. apply in_ids_root.
    + apply IH; [exact F'|]. intros i Hi. apply SL. rewrite ids_of_cons. apply in_or_app. now right.
Qed.

End Browser.
