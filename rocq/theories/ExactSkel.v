(** The exact form of C51: the shape of the page does not depend on what is written in it. *)
From Verif Require Import Base HMap Num DomModel DomSpec ExactSpec DomProofs DomProofs2 DomProofs3 DomProofs4 DomKeyed DomLocal GrowProofs ExactRun.
From Coq Require Import Lia.
Local Open Scope N_scope.

(** The tree with its ids and keys only, and the operations that change them. *)
Fixpoint sk (e : element) : element := match e with Element i _ _ _ cs _ k => Element i [] [] [] (map sk cs) None k end.
Definition sk_op (o : op) : list op :=
  match op_instr o with
  | CreateTag _ p => [Op (op_id o) (CreateTag [] p)]
  | SetId _ | DeleteEl => [o]
  | _ => []
  end.
Definition sk_ops (os : list op) : list op := flat_map sk_op os.
(** Operations that diffing without keys uses. *)
Definition usual (o : op) : Prop := match op_instr o with InsertChild _ | InsertAfter _ | InsertBefore _ | SetInnerHtml _ _ => False | _ => True end.

Lemma sk_id e : el_id (sk e) = el_id e.
Proof. now destruct e. Qed.
Lemma sk_key e : el_key (sk e) = el_key e.
Proof. now destruct e. Qed.
Lemma sk_children e : el_children (sk e) = map sk (el_children e).
Proof. now destruct e. Qed.
Lemma sk_ids e : ids (sk e) = ids e.
Proof.
  induction e as [i n a l cs t k IH] using element_ind2. cbn [sk ids]. f_equal. induction IH as [|c cs H _ IH]; [reflexivity|]. cbn [map flat_map]. now rewrite H, IH.
Qed.
Lemma sk_ids_of l : ids_of (map sk l) = ids_of l.
Proof. unfold ids_of. induction l as [|c l IH]; [reflexivity|]. cbn [map flat_map]. now rewrite sk_ids, IH. Qed.
Lemma sk_with_children cs e : sk (with_children cs e) = with_children (map sk cs) (sk e).
Proof. now destruct e. Qed.
Lemma sk_view x e : view x e -> view (sk x) (sk e).
Proof.
  revert x. induction e as [i n a l cs t k IH] using element_ind2. intros x H. inversion H as [? ? a1 ? ? cs1 ? ? k1 ? _ Hc]; subst. cbn [sk]. constructor; [apply hm_equiv_refl|].
  clear H. revert cs1 Hc. induction IH as [|c cs H1 _ IHc]; intros cs1 Hc; inversion Hc; subst; constructor; auto.
Qed.
Lemma sk_way p : forall e, way p (sk e) = way p e.
Proof.
  induction p as [|n p IH]; intros e; [cbn; now rewrite sk_id|]. cbn [way]. rewrite sk_children, sk_id, firstn_map, map_map, nth_error_map.
  rewrite (map_ext (fun x => el_id (sk x)) el_id) by apply sk_id. destruct (nth_error (el_children e) n) as [c|]; cbn [option_map]; [now rewrite IH|reflexivity].
Qed.
Lemma sk_at p : forall e, at_path p (sk e) = option_map sk (at_path p e).
Proof.
  induction p as [|n p IH]; intros e; [reflexivity|]. cbn [at_path]. rewrite sk_children, nth_error_map. destruct (nth_error (el_children e) n) as [c|]; cbn [option_map]; [apply IH|reflexivity].
Qed.
Lemma sk_parent e : forall i, find_parent_id (sk e) i = find_parent_id e i.
Proof.
  induction e as [r n a l cs t k IH] using element_ind2. intros i. cbn [sk]. rewrite !find_parent_eq. induction IH as [|c cs H _ IHc]; [reflexivity|]. cbn [map parent_list].
  rewrite sk_id, H, IHc. reflexivity.
Qed.
Lemma sk_position i l : position (fun c => N.eqb (el_id c) i) (map sk l) = position (fun c => N.eqb (el_id c) i) l.
Proof. induction l as [|c l IH]; [reflexivity|]. cbn [map position]. now rewrite sk_id, IH. Qed.

Lemma mutate_sk i f g : (forall x y, f x = Some y -> g (sk x) = Some (sk y)) -> forall e e', mutate i f e = Some e' -> mutate i g (sk e) = Some (sk e').
Proof.
  intros Hf. induction e as [r n a l cs t k IH] using element_ind2. intros e' Hm. apply mutate_cases in Hm as [[E Hm]|(Hne & L1 & c & c' & L2 & E & -> & Hn & Hm)].
  - rewrite mutate_root by now rewrite sk_id. auto.
  - cbn [el_children el_id] in *. subst cs. rewrite Forall_forall in IH. cbn [sk with_children]. rewrite !map_app. cbn [map]. apply mutate_lift; auto.
    + now rewrite sk_ids_of.
    + apply IH; [apply in_app_iff; right; now left|exact Hm].
Qed.

Section Max.
Context (max : N).
Lemma apply_op_sk o e e' : usual o -> apply_op max o e = Some e' -> apply max (sk_op o) (sk e) = Some (sk e').
Proof.
  intros Hu H. unfold usual in Hu. unfold sk_op.
  assert (forall f, (forall x y, f x = Some y -> sk y = sk x) -> forall j, mutate j f e = Some e' -> sk e' = sk e) as Same.
  { intros f Hf j Hm. assert (mutate j (fun x => Some x) (sk e) = Some (sk e')) as H1 by (eapply mutate_sk; [|exact Hm]; intros x y Hx; now rewrite (Hf x y Hx)).
    assert (forall x y, mutate j (fun x => Some x) x = Some y -> x = y) as Hid; [|symmetry; now apply Hid].
    clear. induction x as [r n a l cs t k IH] using element_ind2. intros y Hm. apply mutate_cases in Hm as [[E Hm]|(Hne & L1 & c & c' & L2 & E & -> & Hn & Hm)]; [congruence|].
    cbn [el_children with_children] in *. subst cs. rewrite Forall_forall in IH. rewrite (IH c) with (y := c'); auto. apply in_app_iff. right. now left. }
  unfold apply_op in H |- *. destruct (parse_uint max (op_id o)) as [i|] eqn:Ei; [|discriminate].
  destruct (op_instr o) eqn:Eo; try contradiction; try (cbn [apply]; f_equal; symmetry; eapply Same; [|exact H]; intros x y [= <-]; now destruct x).
  - cbn [apply]. unfold apply_op. rewrite Ei, Eo. destruct (parse_uint max value) as [v|]; [|discriminate].
    rewrite (mutate_sk i (fun x => Some (with_id v x)) (fun x => Some (with_id v x))) with (e' := e'); [reflexivity| |exact H]. intros x y [= <-]. now destruct x.
  - cbn [apply]. unfold apply_op. cbn [op_id op_instr]. rewrite Ei. destruct parent_id as [p|]; [|discriminate]. destruct (parse_uint max p) as [j|]; [|discriminate].
    eapply mutate_sk in H; [rewrite H; reflexivity|]. intros x y [= <-]. destruct x as [x1 x2 x3 x4 x5 x6 x7]. cbn [el_children with_children sk]. now rewrite map_app.
  - cbn [apply]. unfold apply_op. rewrite Ei, Eo, sk_parent. destruct (find_parent_id e i) as [p|]; [|discriminate].
    eapply mutate_sk in H; [rewrite H; reflexivity|]. intros x y. cbn beta. rewrite sk_children, sk_position. destruct (position _ _) as [q|]; [|discriminate]. intros [= <-].
    rewrite sk_with_children. do 2 f_equal. unfold remove_at. now rewrite map_app, firstn_map, skipn_map.
Qed.
Lemma apply_sk os : Forall usual os -> forall e e', apply max os e = Some e' -> apply max (sk_ops os) (sk e) = Some (sk e').
Proof.
  induction 1 as [|o os Ho _ IH]; intros e e'; cbn [apply sk_ops flat_map]; [intros [= <-]; reflexivity|]. destruct (apply_op max o e) as [e1|] eqn:E; [|discriminate]. intros H.
  rewrite apply_app, (apply_op_sk _ _ _ Ho E). now apply IH.
Qed.
End Max.

Lemma aims_usual P o : aims P o -> usual o.
Proof. unfold aims, usual. destruct (op_instr o); auto. Qed.
Lemma diff_usual a b os : unkeyed a -> unkeyed b -> diff_to b a = Some os -> Forall usual os.
Proof. intros Ua Ub E. eapply Forall_impl; [|apply (diff_aims b a os Ua Ub E)]. intros o. apply aims_usual. Qed.

(** *** Diffing the shapes *)
Lemma sk_app os1 os2 : sk_ops (os1 ++ os2) = sk_ops os1 ++ sk_ops os2.
Proof. apply flat_map_app. Qed.
Lemma sk_create d : forall p, sk_ops (create_from_scratch d p) = create_from_scratch (sk d) p.
Proof.
  induction d as [i n a l cs t k IH] using element_ind2. intros p. cbn [sk]. rewrite !create_eq. unfold sk_ops. cbn [flat_map sk_op op_instr op_id app map]. f_equal.
  fold (sk_ops). rewrite flat_map_app.
  assert (forall l, Forall (fun x => sk_op (Op (dec i) x) = []) l -> flat_map sk_op (map (Op (dec i)) l) = []) as G.
  { induction 1 as [|x l' H _ IHl]; [reflexivity|]. cbn [map flat_map]. now rewrite H, IHl. }
  rewrite G. 2: { rewrite !Forall_app. split; [|split]; [apply Forall_map, Forall_forall; reflexivity|apply Forall_map, Forall_forall; reflexivity|destruct t; repeat constructor]. }
  cbn [app]. clear G. induction IH as [|c cs H _ IHc]; [reflexivity|]. cbn [map flat_map]. rewrite flat_map_app. f_equal; [apply H|exact IHc].
Qed.
Lemma sk_own a b : sk_ops (diff_own a b) = [].
Proof.
  assert (forall l, Forall (fun o => sk_op o = []) l -> sk_ops l = []) as G.
  { induction 1 as [|x l' H _ IHl]; [reflexivity|]. cbn [sk_ops flat_map]. rewrite H. exact IHl. }
  apply G. unfold diff_own. rewrite !Forall_app. split; [|split; [|split]].
  - unfold diff_name. destruct (str_eqb _ _); repeat constructor.
  - unfold diff_attributes. destruct (hm_eqb _ _); [constructor|]. apply Forall_app. split; apply Forall_flat_map, Forall_forall; intros x _.
    + destruct (contains_key _ _); repeat constructor.
    + destruct (get _ _); [destruct (str_eqb _ _)|]; repeat constructor.
  - unfold diff_text. destruct (text_eqb _ _); [constructor|]. destruct (el_text b); repeat constructor.
  - unfold diff_listeners. destruct (listeners_eqb _ _); [constructor|]. constructor; [reflexivity|]. apply Forall_map, Forall_forall. reflexivity.
Qed.
Lemma own_sk a b : diff_own (sk a) (sk b) = [].
Proof. destruct a, b. reflexivity. Qed.
Lemma id_sk a b : diff_id (sk a) (sk b) = diff_id a b.
Proof. unfold diff_id, id_str. now rewrite !sk_id. Qed.
Lemma sk_id_ops a b : sk_ops (diff_id a b) = diff_id a b.
Proof. unfold diff_id. destruct (N.eqb _ _); reflexivity. Qed.
Lemma keyed_sk e : all_keyed (sk e) = all_keyed e.
Proof. unfold all_keyed. rewrite sk_children. induction (el_children e) as [|c l IH]; [reflexivity|]. cbn [map forallb]. unfold is_keyed at 1 3. now rewrite sk_key, IH. Qed.

(** The changeset without keys, in one piece. *)
Lemma diff_parts a b os : unkeyed a -> unkeyed b -> diff_to b a = Some os ->
  exists z, cat_ops (zip_ops (el_children b) (el_children a)) = Some z /\
    os = diff_own a b ++ map (fun c => Op (id_str c) DeleteEl) (skipn (length (el_children b)) (el_children a)) ++ z
         ++ flat_map (fun d => create_from_scratch d (Some (id_str a))) (skipn (length (el_children a)) (el_children b)) ++ diff_id a b.
Proof.
  intros Ua Ub. rewrite diff_to_eq. destruct (zip_some (el_children b) (every_children _ _ Ub) (el_children a)) as (z & Ez). intros H. exists z. split; [exact Ez|].
  destruct (all_keyed a && all_keyed b) eqn:K.
  - apply andb_true_iff in K as [K1 K2]. apply unkeyed_kids in K1, K2; auto. rewrite K1, K2 in *. cbn in Ez. injection Ez as <-. cbn in H. injection H as <-. now rewrite app_nil_r.
  - unfold plain_kids in H. rewrite Ez in H. cbn [cat_ops] in H. injection H as <-. now rewrite !app_nil_r, <- !app_assoc.
Qed.
Lemma parts_diff a b z : unkeyed a -> unkeyed b -> cat_ops (zip_ops (el_children b) (el_children a)) = Some z ->
  diff_to b a = Some (diff_own a b ++ map (fun c => Op (id_str c) DeleteEl) (skipn (length (el_children b)) (el_children a)) ++ z
         ++ flat_map (fun d => create_from_scratch d (Some (id_str a))) (skipn (length (el_children a)) (el_children b)) ++ diff_id a b).
Proof.
  intros Ua Ub Ez. destruct (diff_some b Ub a) as (os & E). destruct (diff_parts a b os Ua Ub E) as (z' & Ez' & ->). rewrite Ez in Ez'. injection Ez' as <-. exact E.
Qed.
Lemma unkeyed_sk e : unkeyed e -> unkeyed (sk e).
Proof.
  induction e as [i n a l cs t k IH] using element_ind2. intros H. inversion H as [? H1 H2]; subst. constructor; [exact H1|]. cbn [sk el_children] in *. clear H H1.
  induction IH as [|c cs Hc _ IHc]; [constructor|]. inversion H2; subst. cbn [map]. constructor; [apply Hc; assumption|apply IHc; assumption].
Qed.
Lemma diff_sk b : forall a os, unkeyed a -> unkeyed b -> diff_to b a = Some os -> diff_to (sk b) (sk a) = Some (sk_ops os).
Proof.
  induction b as [bi bn ba bl bc bt bk IH] using element_ind2. intros a os Ua Ub E. set (b := Element bi bn ba bl bc bt bk) in *.
  destruct (diff_parts a b os Ua Ub E) as (z & Ez & ->). change (el_children b) with bc in *.
  assert (cat_ops (zip_ops (el_children (sk b)) (el_children (sk a))) = Some (sk_ops z)) as Ez'.
  { rewrite !sk_children. change (el_children b) with bc. pose proof (every_children _ _ Ua) as Uc. pose proof (every_children _ _ Ub) as Ud. change (el_children b) with bc in Ud. clear E Ub. clearbody b.
    revert z Ez Uc. generalize (el_children a) as cs. induction IH as [|d ds Hd _ IHd]; intros cs z Ez Uc; [cbn in *; now injection Ez as <-|].
    destruct cs as [|c cs]; [cbn in *; now injection Ez as <-|]. cbn [map zip_ops cat_ops] in *. inversion Uc as [|? ? U1 U2]; subst. inversion Ud as [|? ? V1 V2]; subst.
    destruct (diff_to d c) as [o1|] eqn:E1; [|discriminate]. destruct (cat_ops (zip_ops ds cs)) as [o2|] eqn:E2; [|discriminate]. injection Ez as <-.
    rewrite (Hd c o1 U1 V1 E1), (IHd V2 cs o2 E2 U2). now rewrite sk_app. }
  rewrite (parts_diff (sk a) (sk b) _ (unkeyed_sk _ Ua) (unkeyed_sk _ Ub) Ez'). f_equal. rewrite !sk_app, sk_own, own_sk, id_sk, sk_id_ops, !sk_children, !map_length. cbn [app]. f_equal; [|f_equal; f_equal].
  - rewrite skipn_map, map_map. change (el_children b) with bc. generalize (skipn (length bc) (el_children a)). induction l as [|c l IHl]; [reflexivity|]. cbn [map sk_ops flat_map]. unfold id_str. rewrite sk_id.
    cbn [sk_op op_instr app]. f_equal. exact IHl.
  - rewrite skipn_map. change (el_children b) with bc. generalize (skipn (length (el_children a)) bc). unfold id_str. rewrite sk_id. induction l as [|c l IHl]; [reflexivity|]. cbn [map flat_map].
    rewrite sk_app, IHl. f_equal. symmetry. apply sk_create.
Qed.

Lemma proper_sk max e : proper max e -> proper max (sk e).
Proof.
  induction e as [i n a l cs t k IH] using element_ind2. intros H. inversion H as [? [H1 _] H2]; subst. constructor; [split; [exact H1|constructor]|]. cbn [sk el_children] in *. clear H H1.
  induction IH as [|c cs Hc _ IHc]; [constructor|]. inversion H2; subst. cbn [map]. constructor; [apply Hc; assumption|apply IHc; assumption].
Qed.
Lemma numbered_sk : (forall i e j, numbered i e j -> numbered i (sk e) j) /\ (forall i l j, numbered_list i l j -> numbered_list i (map sk l) j).
Proof. apply numbered_both; cbn [sk map]; intros; econstructor; eauto. Qed.
Lemma keeps_sk b : forall a, matched keeps (sk a) (sk b).
Proof.
  induction b as [bi bn ba bl bc bt bk IH] using element_ind2. intros [ai an aa al ac at_ ak]. constructor; [right; cbn; auto|]. cbn [sk el_children].
  revert ac. induction IH as [|d ds Hd _ IHd]; intros [|c cs]; cbn [map]; constructor; auto.
Qed.
Lemma bare_sk e : bare e -> bare (sk e).
Proof. destruct e. unfold bare. cbn. intros (_ & _ & -> & _). auto. Qed.
Lemma level_sk b : forall W a, level W a b -> level W (sk a) (sk b).
Proof.
  induction b as [bi bn ba bl bc bt bk IH] using element_ind2. intros W a H. inversion H as [? ? ? Hle Hl]; subst. constructor; [now rewrite !sk_id|]. rewrite sk_id, !sk_children. cbn [el_children] in *.
  clear H Hle. revert Hl. generalize (el_children a) as cs. generalize (el_id a :: W). intros W'. induction IH as [|d ds Hd _ IHd]; intros cs Hl; [constructor|].
  inversion Hl as [? ? Ha| |? ? ? ? ? H1 H2]; subst.
  - constructor. assert (forall e, every (fun x => In (el_id x) W' -> bare x) e -> every (fun x => In (el_id x) W' -> bare x) (sk e)) as G.
    { clear. induction e as [i n a l cs t k IH] using element_ind2. intros H. inversion H as [? H1 H2]; subst. constructor; [rewrite sk_id; intros Hi; now apply bare_sk, H1|]. cbn [sk el_children] in *. clear H H1.
      induction IH as [|c cs Hc _ IHc]; [constructor|]. inversion H2; subst. cbn [map]. constructor; [apply Hc; assumption|apply IHc; assumption]. }
    rewrite Forall_forall in Ha |- *. intros x Hx. apply in_map_iff in Hx as (y & <- & Hy). auto.
  - cbn [map]. constructor; auto.
Qed.

(** Where keys end up. *)
Lemma level_keys max W a b i j i' j' os x b' : numbered i a j -> numbered i' b j' -> unkeyed a -> unkeyed b -> proper max a -> proper max b -> level W a b ->
  diff_to b a = Some os -> view x a -> apply max os x = Some b' -> matched same_key (sk x) (sk b').
Proof.
  intros Na Nb Ua Ub Pa Pb HL E Vx Ha.
  destruct (comes_out max (sk b) W (sk a) i j i' j') as (os' & E' & H); auto using unkeyed_sk, proper_sk, level_sk, keeps_sk; try now apply numbered_sk.
  rewrite (diff_sk b a os Ua Ub E) in E'. injection E' as <-. destruct (H (sk x) (sk_view _ _ Vx)) as (b'' & _ & Mk & R). apply runs_apply in R.
  rewrite (apply_sk max os (diff_usual _ _ _ Ua Ub E) x b' Ha) in R. injection R as <-. exact Mk.
Qed.
