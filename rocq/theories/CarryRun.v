(** The exact form of C59: the run of a changeset in the browser. *)
From Verif Require Import Base HMap Num Json DomModel DomSpec ClientModel ClientSpec InnerHtml ExactSpec CarrySpec DomProofs DomProofs2 DomProofs3 DomProofs4 DomKeyed DomLocal ExactRun ClientProofs ClientProofs2 CarryProofs.
From Coq Require Import Lia.
Local Open Scope N_scope.

Section Browser.
Context (reparse : str -> str -> list node -> list node) (reparse_std : standard reparse).
Notation jruns := (jruns reparse).
Notation js_exec := (js_exec reparse).

(** ** Exceptions *)
(** The instruction looks for the element with this id first. *)
Definition aims (o : op) (i : N) : Prop := exists f, forall doc, js_exec (js_op o) doc = by_id (dec i) f doc.
(** Running [os] on [F] throws: an id of [Z] is looked for and not there. *)
Definition jfails (S Z : N -> Prop) (os : list op) (F : list node) : Prop :=
  exists os1 o os2 F1 i, os = os1 ++ o :: os2 /\ jruns S os1 F F1 /\ aims o i /\ Z i /\ ~ In (dec i) (flat_map nids F1).
Lemma by_id_absent i f F : ~ In i (flat_map nids F) -> by_id i f F = None.
Proof. intros H. unfold by_id. rewrite edit_none_nodes; [reflexivity| |exact H]. apply Forall_forall. intros n _. apply edit_none. Qed.
Lemma js_run_app os1 os2 F F1 : js_run reparse (map js_op os1) F = (F1, true) -> js_run reparse (map js_op (os1 ++ os2)) F = js_run reparse (map js_op os2) F1.
Proof.
  revert F. induction os1 as [|o os IH]; intros F; cbn [map app js_run]; [intros [= ->]; reflexivity|]. destruct (js_exec (js_op o) F); [apply IH|discriminate].
Qed.
Lemma jfails_run S Z os F : jfails S Z os F -> snd (js_run reparse (map js_op os) F) = false.
Proof.
  intros (os1 & o & os2 & F1 & i & -> & R & (f & Hf) & _ & Hn). rewrite (js_run_app _ _ _ F1) by (eapply jruns_run; eauto). cbn [map js_run].
  rewrite Hf, by_id_absent by exact Hn. reflexivity.
Qed.
Lemma jfails_app S Z os1 os2 F : jfails S Z os1 F -> jfails S Z (os1 ++ os2) F.
Proof. intros (q1 & o & q2 & F1 & i & -> & H). exists q1, o, (q2 ++ os2), F1, i. split; [now rewrite <- app_assoc|exact H]. Qed.
Lemma jfails_after S Z os1 os2 F F1 : jruns S os1 F F1 -> jfails S Z os2 F1 -> jfails S Z (os1 ++ os2) F.
Proof.
  intros R (q1 & o & q2 & F2 & i & -> & R2 & H). exists (os1 ++ q1), o, q2, F2, i. split; [now rewrite <- app_assoc|]. split; [|exact H]. eapply jruns_app; eauto.
Qed.
Lemma jfails_lift (S Z S' Z' : N -> Prop) os F t a l L1 L2 : jfails S Z os F ->
  (forall i, S i -> get attr_id a <> Some (dec i) /\ ~ In (dec i) (flat_map nids L1)) ->
  (forall i, Z i -> get attr_id a <> Some (dec i) /\ ~ In (dec i) (flat_map nids L1) /\ ~ In (dec i) (flat_map nids L2)) ->
  (forall i, S i -> S' i) -> (forall i, Z i -> Z' i) -> jfails S' Z' os [Elem t a l (L1 ++ F ++ L2)].
Proof.
  intros (q1 & o & q2 & F1 & i & -> & R & A & Zi & H) HS HZ SS ZZ. exists q1, o, q2, [Elem t a l (L1 ++ F1 ++ L2)], i. split; [reflexivity|].
  split; [eapply jruns_lift; eauto|]. split; [exact A|]. split; [auto|]. destruct (HZ i Zi) as (H1 & H2 & H3). cbn [flat_map nids]. rewrite app_nil_r, in_app_iff, !flat_map_app, !in_app_iff.
  intros [Hx|[Hx|[Hx|Hx]]]; try contradiction. destruct (get attr_id a); [|destruct Hx]. destruct Hx as [->|[]]. now apply H1.
Qed.

(** ** What the instructions of a pair look for first *)
Definition skips (o : op) : Prop := op_instr o = RemoveText.
Definition first_in (Z : N -> Prop) (os : list op) : Prop := Forall skips os \/ exists os1 o os2 i, os = os1 ++ o :: os2 /\ Forall skips os1 /\ aims o i /\ Z i.
Lemma first_nil Z : first_in Z []. Proof. left. constructor. Qed.
Lemma first_app Z os1 os2 : first_in Z os1 -> first_in Z os2 -> first_in Z (os1 ++ os2).
Proof.
  intros [H1|(q1 & o & q2 & i & -> & H)] H2.
  - destruct H2 as [H2|(q1 & o & q2 & i & -> & H3 & H4)]; [left; now apply Forall_app|]. right. exists (os1 ++ q1), o, q2, i. split; [now rewrite <- app_assoc|]. split; [now apply Forall_app|exact H4].
  - right. exists q1, o, (q2 ++ os2), i. split; [now rewrite <- app_assoc|exact H].
Qed.
Lemma first_cons (Z : N -> Prop) o os i : aims o i -> Z i -> first_in Z (o :: os).
Proof. intros A Zi. right. exists [], o, os, i. auto. Qed.
Lemma first_mono (Z Z' : N -> Prop) os : (forall i, Z i -> Z' i) -> first_in Z os -> first_in Z' os.
Proof. intros H [H1|(q1 & o & q2 & i & E & H1 & H2 & H3)]; [now left|right]. exists q1, o, q2, i. auto. Qed.
Lemma first_all (Z : N -> Prop) os : (forall o, In o os -> exists i, aims o i /\ Z i) -> first_in Z os.
Proof. destruct os as [|o os]; intros H; [apply first_nil|]. destruct (H o) as (i & A & Zi); [now left|]. eapply first_cons; eauto. Qed.
Lemma skips_run S os F : Forall skips os -> jruns S os F F.
Proof. induction 1 as [|o os Ho _ IH]; [constructor|]. eapply jr_skip; [|exact IH]. intros doc. destruct o as [i ins]. unfold skips in Ho. cbn in Ho. subst ins. apply exec_remove_text. Qed.
Lemma first_fails (S Z : N -> Prop) os F : first_in Z os -> (forall i, Z i -> ~ In (dec i) (flat_map nids F)) -> Forall skips os \/ jfails S Z os F.
Proof.
  intros [H|(q1 & o & q2 & i & -> & H1 & A & Zi)] Hn; [now left|right]. exists q1, o, q2, F, i. split; [reflexivity|]. split; [now apply skips_run|auto].
Qed.


Lemma first_pair d : forall c os, diff_to d c = Some os -> tidy c -> tidy d -> unkeyed c -> unkeyed d -> matched keeps c d -> first_in (fun i => In i (ids c)) os.
Proof.
  induction d as [bi bn ba bl bc bt bk IH] using element_ind2. set (b := Element bi bn ba bl bc bt bk) in *. intros a os Ho Ta Tb Ua Ub HK.
  pose proof (tidy_kids _ Ta) as Ca. pose proof (tidy_kids _ Tb) as Cb. pose proof (every_children _ _ Ua) as Ka. pose proof (every_children _ _ Ub) as Kb.
  destruct Ta as [Wa Na]. destruct Tb as [Wb Nb]. pose proof (every_root _ _ Na) as (_ & CAa & _). pose proof (every_root _ _ Nb) as (CNb & CAb & CLb).
  inversion HK as [? ? HKr HKl]; subst. change (el_children b) with bc in *.
  rewrite diff_to_eq in Ho. change (el_children b) with bc in Ho.
  assert (first_in (fun i => In i (ids a)) (diff_own a b)) as Fo.
  { unfold diff_own. apply first_app; [|apply first_app; [|apply first_app]].
    - unfold diff_name. destruct (str_eqb _ _) eqn:E; [apply first_nil|]. apply first_cons with (i := el_id a); [|apply in_ids_root].
      destruct HKr as [Hi|[Hn _]]; [|apply str_eqb_eq in Hn; congruence]. unfold id_str. rewrite <- Hi. eexists. intros doc. now apply exec_name.
    - apply first_all. intros o Hin. exists (el_id a). split; [|apply in_ids_root]. apply in_diff_attributes in Hin as [(k & -> & Hk)|(k & v & -> & Hk)].
      + unfold keys in Hk. apply in_map_iff in Hk as ([k' v] & <- & Hk). rewrite Forall_forall in CAa. apply CAa in Hk as [Hk _]. eexists. intros doc. apply exec_remove. exact Hk.
      + rewrite Forall_forall in CAb. apply CAb in Hk as [Hk _]. eexists. intros doc. apply exec_attr; [exact Hk|]. apply name_plus_free, Hk.
    - unfold diff_text. destruct (text_eqb _ _); [apply first_nil|]. destruct (el_text b) as [v|]; [|left; repeat constructor]. eapply first_cons; [|apply in_ids_root]. eexists. intros doc. apply exec_text.
    - unfold diff_listeners. destruct (listeners_eqb _ _); [apply first_nil|]. eapply first_cons; [|apply in_ids_root]. eexists. intros doc. apply exec_clear. }
  assert (first_in (fun i => In i (ids a)) (diff_id a b)) as Fi.
  { unfold diff_id. destruct (N.eqb _ _); [apply first_nil|]. eapply first_cons; [|apply in_ids_root]. eexists. intros doc. apply exec_id. }
  assert (forall kos, (if all_keyed a && all_keyed b then keyed_kids (el_children a) bc else plain_kids (el_id a) (el_children a) bc) = Some kos -> first_in (fun i => In i (ids a)) kos) as Fk.
  { intros kos. destruct (all_keyed a && all_keyed b) eqn:E.
    { apply andb_true_iff in E as [E1 E2]. apply unkeyed_kids in E1, E2; auto. change (el_children b) with bc in E2. rewrite E1, E2. cbn. intros [= <-]. apply first_nil. }
    assert (forall i, In i (ids_of (el_children a)) -> In i (ids a)) as Hin by (intros i Hi; destruct a; right; exact Hi).
    unfold plain_kids. destruct (cat_ops (zip_ops bc (el_children a))) as [zos|] eqn:Ez; [|discriminate].
    assert (first_in (fun i => In i (ids_of (el_children a))) zos) as Fz.
    { clear -IH Ez HKl Ca Cb Ka Kb. revert Ez HKl Ca Cb Ka Kb. generalize (el_children a) as cs. intros cs. revert cs zos. induction IH as [|d ds Hd _ IHds]; intros cs zos Ez HK Ca Cb Ka Kb.
      - cbn in Ez. injection Ez as <-. apply first_nil.
      - destruct cs as [|c cs]; [cbn in Ez; injection Ez as <-; apply first_nil|]. cbn [zip_ops cat_ops] in Ez. destruct (diff_to d c) as [o1|] eqn:E1; [|discriminate].
        destruct (cat_ops (zip_ops ds cs)) as [o2|] eqn:E2; [|discriminate]. injection Ez as <-. inversion HK; subst. inversion Ca; subst. inversion Cb; subst. inversion Ka; subst. inversion Kb; subst.
        apply first_app.
        + eapply first_mono; [|eapply Hd; eauto]. intros i Hi. rewrite ids_of_cons. apply in_or_app. now left.
        + eapply first_mono; [|eapply IHds; eauto]. intros i Hi. rewrite ids_of_cons. apply in_or_app. now right. }
    apply (first_mono _ _ _ Hin) in Fz. cbn [cat_ops]. intros [= <-]. rewrite ?app_nil_r. repeat apply first_app; auto.
    - apply first_all. intros o Ho'. apply in_map_iff in Ho' as (c & <- & Hc). exists (el_id c). split; [eexists; intros doc; apply exec_delete|].
      apply Hin. apply (in_ids_skipn _ (length bc)). apply in_flat_map. exists c. split; [exact Hc|apply in_ids_root].
    - assert (Forall tidy (skipn (length (el_children a)) bc)) as Ht by (now apply forall_skipn).
      destruct (skipn (length (el_children a)) bc) as [|d ds]; [apply first_nil|]. cbn [flat_map]. inversion Ht as [|? ? [_ Ht1] _]; subst. destruct d as [di dn da dl dc dt dk]. rewrite create_eq.
      apply every_root in Ht1 as [Ht1 _]. cbn [app]. eapply first_cons; [|apply in_ids_root]. eexists. intros doc. now apply exec_create. }
  destruct (if all_keyed a && all_keyed b then _ else _) as [kos|]; [|discriminate]. cbn [cat_ops] in Ho. injection Ho as <-. rewrite app_nil_r. apply first_app; [exact Fo|]. apply first_app; auto.
Qed.

(** ** Creation: only the nodes that are not bare are searched for *)
Definition jmakes (d : element) : Prop := NoDup (ids d) -> tidy d ->
  forall (S Q : N -> Prop) r tag m m0 l K, amap r m m0 -> (forall i, In i (ids d) -> ~ In (dec i) (flat_map nids K)) ->
    every (fun x => bare x \/ Q (el_id x)) d -> (forall i, Q i -> i <> r) -> S r -> (forall i, Q i -> S i) ->
    exists d', displays d' d /\ jruns S (create_from_scratch d (Some (dec r))) [Elem tag m l K] [Elem tag m l (K ++ [d'])].
Lemma jmakes_list ds : Forall jmakes ds -> NoDup (ids_of ds) -> Forall tidy ds ->
  forall (S Q : N -> Prop) r tag m m0 l K, amap r m m0 -> (forall i, In i (ids_of ds) -> ~ In (dec i) (flat_map nids K)) ->
    Forall (every (fun x => bare x \/ Q (el_id x))) ds -> (forall i, Q i -> i <> r) -> S r -> (forall i, Q i -> S i) ->
    exists ds', Forall2 displays ds' ds /\ jruns S (flat_map (fun c => create_from_scratch c (Some (dec r))) ds) [Elem tag m l K] [Elem tag m l (K ++ ds')].
Proof.
  induction 1 as [|d ds Hd _ IH]; intros Hnd Ht S Q r tag m m0 l K Hm Hav He Hq Sr SQ.
  - exists []. split; [constructor|]. cbn [flat_map]. rewrite app_nil_r. constructor.
  - inversion Ht as [|? ? P1 P2]; subst. inversion He as [|? ? E1 E2]; subst. rewrite ids_of_cons in *. apply nodup_app_iff in Hnd as (N1 & N2 & N3).
    destruct (Hd N1 P1 S Q r tag m m0 l K Hm) as (d' & V & R); auto. { intros i Hi. apply Hav. apply in_or_app. now left. }
    destruct (IH N2 P2 S Q r tag m m0 l (K ++ [d']) Hm) as (ds' & Vs & Rs); auto.
    { intros i Hi. rewrite flat_map_app, in_app_iff. cbn [flat_map]. rewrite app_nil_r, (displays_nids _ _ V), in_map_dec. intros [H|H]; [apply (Hav i); [apply in_or_app; now right|exact H]|exact (N3 i H Hi)]. }
    exists (d' :: ds'). split; [now constructor|]. cbn [flat_map]. eapply jruns_app; [exact R|]. rewrite <- app_assoc in Rs. exact Rs.
Qed.
Lemma jmake_runs d : jmakes d.
Proof.
  induction d as [i nm at_ ls cs tx ky IH] using element_ind2. intros Hnd Ht S Q r tag m m0 l K Hm Hav He Hq Sr SQ.
  rewrite create_eq. pose proof (tidy_kids _ Ht) as Htc. destruct Ht as [Hw Hc].
  pose proof (every_root _ _ Hc) as (CN & CA & CL). pose proof (every_root _ _ Hw) as Hwf.
  pose proof (every_root _ _ He) as Hroot. cbn [el_name el_attrs el_listeners el_children el_id] in *. cbn [ids] in Hnd. inversion Hnd as [|? ? Hni Hndc]; subst.
  assert (amap i [(attr_id, dec i)] []) as Hm0.
  { split; [reflexivity|]. intros q Hq'. cbn [get]. destruct (str_eqb q attr_id) eqn:E; [apply str_eqb_eq in E; congruence|reflexivity]. }
  assert (forall os e', jruns S os [Elem tag m l (K ++ [Elem nm [(attr_id, dec i)] [] []])] e' -> jruns S (Op (dec i) (CreateTag nm (Some (dec r))) :: os) [Elem tag m l K] e') as Hfirst.
  { intros os e' R. eapply jr_own; [intros doc; now apply exec_create|exact Sr|eapply amap_id; exact Hm|reflexivity|exact R]. }
  destruct Hroot as [(B1 & B2 & B3 & B4)|Hroot].
  - cbn in B1, B2, B3, B4. subst. cbn [map app flat_map]. exists (Elem nm [(attr_id, dec i)] [] []). split; [destruct Hm0; now apply (Displays i nm [] [] [] None ky [(attr_id, dec i)] [])|]. apply Hfirst. constructor.
  - set (Sd' := fun j => j = i \/ (Q j /\ In j (flat_map ids cs))). assert (Sd' i) as Si by now left.
    destruct (attrs_jruns reparse Sd' i (map (fun kv => SetAttribute (fst kv) (snd kv)) at_)) with (n := nm) (ls := @nil listener) (cs := @nil element) (t := @None str) (k := @None str)
       (m0 := @nil (str * str)) (m0' := extend [] at_) (tag := nm) (m := [(attr_id, dec i)]) (L := @nil (str * str)) (kids := @nil node) as (m' & Hm' & R1); auto.
    { apply Forall_forall. intros ins Hin. apply in_map_iff in Hin as ([k v] & <- & Hin). rewrite Forall_forall in CA. apply CA in Hin. cbn in *. tauto. }
    { apply owns_set_attrs. }
    rewrite extend_nodup in Hm' by exact Hwf.
    pose proof (attach_jruns reparse Sd' i ls CL Si nm m' at_ [] [] Hm') as R2. cbn [app] in R2.
    assert (jruns Sd' (map (Op (dec i)) (match tx with Some v => [SetText v] | None => [] end)) [Elem nm m' (lmap ls) []] [Elem nm m' (lmap ls) (text_nodes (text_of tx))]) as R3.
    { destruct tx as [v|]; cbn [map text_of text_nodes]; [|constructor]. eapply jr_own; [|exact Si|eapply amap_id; exact Hm'| |constructor].
      - intros doc. apply exec_text.
      - reflexivity. }
    destruct (jmakes_list cs IH Hndc Htc Sd' (fun j => Q j /\ In j (flat_map ids cs)) i nm m' at_ (lmap ls) (text_nodes (text_of tx)) Hm') as (cs' & Vs & R4); auto.
    { intros j _. rewrite text_nids. intros []. }
    { pose proof (every_children _ _ He) as Hch. cbn [el_children] in Hch. rewrite Forall_forall in Hch |- *. intros c Hin. specialize (Hch c Hin). apply every_ids in Hch.
      eapply every_impl; [|exact Hch]. cbn beta. intros x [[Hx|Hx] Hx2]; [now left|right]. split; [exact Hx|]. apply in_flat_map. eauto. }
    { intros j [_ Hj] ->. exact (Hni Hj). }
    { intros j Hj. now right. }
    exists (Elem nm m' (lmap ls) (text_nodes (text_of tx) ++ cs')). split. { destruct Hm'. now constructor. }
    apply Hfirst. rewrite <- (app_nil_r (K ++ [_])), <- app_assoc. rewrite <- (app_nil_r (K ++ [Elem nm m' _ _])), <- app_assoc.
    apply (jruns_lift reparse Sd' S).
    + rewrite !map_app. eapply jruns_app; [|exact R4]. eapply jruns_app; [exact R1|]. eapply jruns_app; [exact R2|exact R3].
    + intros j Hj. assert (Q j /\ In j (ids (Element i nm at_ ls cs tx ky))) as [H1 H2] by (cbn [ids]; destruct Hj as [->|[Hj Hj2]]; split; auto; [now left|now right]).
      split; [|now apply Hav]. destruct Hm as [Hm _]. rewrite Hm. intros [= E]. apply dec_inj in E. apply Hq in H1. congruence.
    + intros j [->|[Hj _]]; auto.
Qed.

(** ** The instructions for a node's own fields *)
Lemma own_ends (S : N -> Prop) a b f m xs : tidy a -> tidy b -> keeps a b -> renamed_empty a b -> S (el_id a) ->
  amap (el_id a) m (el_attrs a) -> Forall2 displays xs (map (mask f) (el_children a)) ->
  exists m' L s K, amap (el_id a) m' (el_attrs b) /\
    jruns S (diff_own a b) [Elem (el_name a) m (lmap (mask_l f (el_listeners a))) (text_nodes (text_of (el_text a)) ++ xs)] [Elem (el_name b) m' L (text_nodes s ++ K)] /\
    (L = lmap (el_listeners b) <-> (f = true \/ el_name a <> el_name b -> relisted a b)) /\
    (K = [] /\ el_children a <> [] /\ ~ text_ok a b \/
     Forall2 displays K (map (mask (lost f a b)) (el_children a)) /\ (text_nodes s = text_nodes (text_of (el_text b)) <-> text_ok a b)).
Proof.
  intros [Wa0 Ca] [Wb0 Cb] HK HR Si Hm Hk. pose proof (every_root _ _ Wa0) as Wa. pose proof (every_root _ _ Wb0) as Wb.
  pose proof (every_root _ _ Ca) as (_ & CAa & _). pose proof (every_root _ _ Cb) as (CNb & CAb & CLb). cbn beta in Wa, Wb.
  (* the state after the renaming *)
  assert (exists L K0, jruns S (diff_name a b) [Elem (el_name a) m (lmap (mask_l f (el_listeners a))) (text_nodes (text_of (el_text a)) ++ xs)] [Elem (el_name b) m L K0] /\
    (el_name a = el_name b /\ L = lmap (mask_l f (el_listeners a)) \/ el_name a <> el_name b /\ L = []) /\
    (K0 = text_nodes (text_of (el_text a)) ++ xs \/ (exists v, el_text b = Some v /\ el_text a <> Some v /\ el_children a = []))) as (L & K0 & R1 & HL & HK0).
  { unfold diff_name. destruct (str_eqb (el_name a) (el_name b)) eqn:E.
    - apply str_eqb_eq in E. rewrite E. eexists _, _. split; [constructor|]. split; now left.
    - assert (el_name a <> el_name b) as Hne by (intros H; apply str_eqb_eq in H; congruence).
      destruct HK as [Hid|[Hn _]]; [|contradiction]. destruct HR as [HR|(B0 & B1 & B2)]; [contradiction|].
      exists [], (reparse (el_name a) (el_name b) (text_nodes (text_of (el_text a)) ++ xs)). split.
      { unfold id_str. rewrite <- Hid. eapply jr_own; [|exact Si|eapply amap_id; exact Hm| |constructor].
        - intros doc. now apply exec_name.
        - reflexivity. }
      split; [now right|]. destruct B2 as [B2|(v & B2 & B3)]; [left|right; eauto]. rewrite B1 in Hk. cbn [map] in Hk. inversion Hk; subst xs. rewrite B2. cbn [text_nodes app]. apply reparse_std. unfold inner_html, html_parse. destruct (_ || _); cbn [flat_map];
            (destruct (str_eqb (el_name b) (bs "html")) eqn:Eh; [apply str_eqb_eq in Eh; congruence|reflexivity]). }
  (* attributes *)
  destruct (diff_attributes_spec a b Wa Wb) as (l2 & E2 & H2).
  assert (Forall attr_ok l2) as Hl2.
  { apply Forall_forall. intros ins Hin. assert (In (Op (id_str a) ins) (diff_attributes a b)) as Hd by (rewrite E2; now apply in_map).
    apply in_diff_attributes in Hd as [(k & [= ->] & Hk2)|(k & v & [= ->] & Hk2)].
    - unfold keys in Hk2. apply in_map_iff in Hk2 as ([k' v] & <- & Hk2). rewrite Forall_forall in CAa. apply CAa in Hk2. cbn in *. tauto.
    - rewrite Forall_forall in CAb. apply CAb in Hk2. cbn in *. tauto. }
  destruct (H2 (el_id a) (el_name a) (el_attrs a) [] [] None None (hm_equiv_refl _)) as (m1 & O2 & Em1).
  destruct (attrs_jruns reparse S (el_id a) l2 Hl2 Si _ _ _ _ _ _ _ (el_name b) m L K0 O2 Hm) as (m' & Hm' & R2).
  apply (amap_equiv _ _ _ _ Hm') in Em1. clear Hm'.
  (* text *)
  assert (exists s K, jruns S (diff_text a b) [Elem (el_name b) m' L K0] [Elem (el_name b) m' L (text_nodes s ++ K)] /\
     (K = [] /\ el_children a <> [] /\ ~ text_ok a b \/ Forall2 displays K (map (mask f) (el_children a)) /\ (text_nodes s = text_nodes (text_of (el_text b)) <-> text_ok a b))) as (s & K & R3 & HT).
  { unfold diff_text. destruct (text_eqb (el_text a) (el_text b)) eqn:E.
    - apply text_eqb_eq in E. destruct HK0 as [->|(v & K1 & K2 & _)]; [|congruence]. exists (text_of (el_text a)), xs. split; [constructor|]. right. split; [exact Hk|]. rewrite E. split; [intros _; now left|reflexivity].
    - assert (el_text a <> el_text b) as Hne by (intros H; apply text_eqb_eq in H; congruence).
      destruct (el_text b) as [v|] eqn:Eb.
      + exists v, []. split.
        { rewrite app_nil_r. eapply jr_own; [|exact Si|eapply amap_id; exact Em1| |constructor].
          - intros doc. apply exec_text.
          - reflexivity. }
        unfold text_ok. rewrite Eb. destruct (el_children a) as [|c cs]; [right|left].
        * split; [constructor|]. split; [intros _; right; left; split; [discriminate|reflexivity]|reflexivity].
        * split; [reflexivity|]. split; [discriminate|]. intros [H|[[_ H]|[H _]]]; [contradiction|discriminate|discriminate].
      + destruct HK0 as [->|(v & K1 & _)]; [|discriminate]. exists (text_of (el_text a)), xs. split; [eapply jr_skip; [intros; apply exec_remove_text|constructor]|]. right. split; [exact Hk|].
        unfold text_ok. rewrite Eb. cbn [text_of text_nodes]. split.
        * destruct (text_of (el_text a)); [auto|discriminate].
        * intros [H|[[H _]|[_ H]]]; [contradiction|contradiction|]. now rewrite H. }
  (* listeners *)
  unfold diff_own. rewrite E2. change (diff_name a b ++ map (Op (id_str a)) l2 ++ ?x) with (diff_name a b ++ map (Op (dec (el_id a))) l2 ++ x).
  destruct (listeners_eqb (el_listeners a) (el_listeners b)) eqn:E.
  - assert (el_listeners a = el_listeners b) as El by (now apply listeners_eqb_eq). exists m', L, s, K. split; [exact Em1|]. split.
    { eapply jruns_app; [exact R1|]. eapply jruns_app; [exact R2|]. eapply jruns_app; [exact R3|]. unfold diff_listeners. rewrite E. constructor. }
    unfold lost. rewrite E, orb_false_r. split; [|exact HT]. unfold relisted. rewrite <- El. unfold lmap.
    assert (forall l : list listener, [] = map (fun x => (cut (l_event x), l_name x)) l <-> l = []) as Hnil by (intros [|? ?]; split; intros H; try discriminate; reflexivity).
    destruct HL as [[Hn ->]|[Hn ->]].
    + destruct f; cbn [mask_l map].
      * rewrite Hnil. split; [intros H _; now left|]. intros H. destruct H; [now left|assumption|congruence].
      * split; [intros _ [H|H]; [discriminate|contradiction]|reflexivity].
    + rewrite Hnil. split; [intros H _; now left|]. intros H. destruct H; [now right|assumption|congruence].
  - assert (el_listeners a <> el_listeners b) as El by (intros H; apply listeners_eqb_eq in H; congruence).
    exists m', (lmap (el_listeners b)), s, (map clone K). split; [exact Em1|]. split.
    { eapply jruns_app; [exact R1|]. eapply jruns_app; [exact R2|]. eapply jruns_app; [exact R3|]. unfold diff_listeners. rewrite E.
      eapply jr_own; [|exact Si|eapply amap_id; exact Em1| |].
      - intros doc. apply exec_clear.
      - cbn [clone]. reflexivity.
      - rewrite map_app. assert (map clone (text_nodes s) = text_nodes s) as -> by (now destruct s).
        unfold generate_listeners, id_str. destruct (el_listeners b) as [|x l] eqn:Elb; [constructor|]. rewrite <- Elb in *.
        assert (el_id a = el_id b) as Hid by (destruct HK as [Hid|[_ [H|H]]]; [exact Hid|contradiction|congruence]). rewrite <- Hid.
        pose proof (attach_jruns reparse S (el_id a) (el_listeners b) CLb Si (el_name b) m' (el_attrs b) [] (text_nodes s ++ map clone K) Em1) as R.
        rewrite map_map in R. exact R. }
    split; [split; [intros _ _; now right|reflexivity]|].
    assert (lost f a b = true) as -> by (apply lost_true; now right).
    destruct HT as [(-> & HT)|[H1 HT]]; [left; auto|right]. split; [|exact HT]. now apply clones_mask in H1.
Qed.
End Browser.
