(** The exact form of C51: names and listeners of nodes that get another id. *)
From Verif Require Import Base HMap Num DomModel DomSpec ExactSpec DomProofs DomProofs2 DomProofs3 DomProofs4 DomKeyed DomLocal GrowProofs ExactRun ExactSkel.
From Coq Require Import Lia.
Local Open Scope N_scope.

Lemma matched_paths (P : element -> element -> Prop) b : forall a, (forall q c d, at_path q a = Some c -> at_path q b = Some d -> P c d) -> matched P a b.
Proof.
  induction b as [bi bn ba bl bc bt bk IH] using element_ind2. intros a H. constructor; [apply (H []); reflexivity|]. cbn [el_children].
  assert (forall n q c d c' d', nth_error (el_children a) n = Some c -> nth_error bc n = Some d -> at_path q c = Some c' -> at_path q d = Some d' -> P c' d') as H2.
  { intros n q c d c' d' H1 H2 H3 H4. apply (H (n :: q)); cbn [at_path el_children]; [now rewrite H1|now rewrite H2]. }
  clear H. revert H2. generalize (el_children a) as cs. induction IH as [|d ds Hd _ IHd]; intros [|c cs] H2; constructor.
  - apply Hd. intros q c' d'. apply (H2 0%nat); reflexivity.
  - apply IHd. intros n. apply (H2 (S n)).
Qed.
Lemma paths_matched (P : element -> element -> Prop) q : forall a b c d, matched P a b -> at_path q a = Some c -> at_path q b = Some d -> P c d.
Proof.
  induction q as [|n q IH]; intros a b c d H Hc Hd; inversion H as [? ? H1 H2]; subst; [cbn in *; congruence|]. cbn [at_path] in *.
  destruct (nth_error (el_children a) n) as [x|] eqn:Ex; [|discriminate]. destruct (nth_error (el_children b) n) as [y|] eqn:Ey; [|discriminate].
  apply (IH x y); auto. clear -H2 Ex Ey. revert H2 Ex Ey. generalize (el_children b) as ds. generalize (el_children a) as cs. clear. intros cs. revert n.
  induction cs as [|u cs IHc]; intros n ds H2 Ex Ey; [now destruct n|]. destruct ds as [|v ds]; [now destruct n|]. inversion H2; subst.
  destruct n; cbn in *; [congruence|]. eauto.
Qed.

(** *** Where the operations of a changeset come from *)
Inductive origin (a b : element) (o : op) : Prop :=
| OPair q c d : at_path q a = Some c -> at_path q b = Some d -> In o (diff_own c d ++ diff_id c d) -> origin a b o
| ODelete : op_instr o = DeleteEl -> origin a b o
| OMade q c d n e : at_path q a = Some c -> at_path q b = Some d -> (length (el_children c) <= n)%nat -> nth_error (el_children d) n = Some e ->
    In o (create_from_scratch e (Some (id_str c))) -> origin a b o.
Lemma origin_in n a b c d o : nth_error (el_children a) n = Some c -> nth_error (el_children b) n = Some d -> origin c d o -> origin a b o.
Proof.
  intros Hc Hd [q x y H1 H2 H3|H|q x y m e H1 H2 H3 H4 H5].
  - apply (OPair a b o (n :: q) x y); cbn [at_path]; [now rewrite Hc|now rewrite Hd|exact H3].
  - now apply ODelete.
  - apply (OMade a b o (n :: q) x y m e); cbn [at_path]; auto; [now rewrite Hc|now rewrite Hd].
Qed.
Lemma nth_skipn {A} (l : list A) n m : nth_error (skipn n l) m = nth_error l (n + m).
Proof. revert l. induction n as [|n IH]; intros l; [reflexivity|]. destruct l; cbn; [now destruct m|apply IH]. Qed.
Lemma zip_split z ds cs o : cat_ops (zip_ops ds cs) = Some z -> In o z -> exists n c d os, nth_error cs n = Some c /\ nth_error ds n = Some d /\ diff_to d c = Some os /\ In o os.
Proof.
  intros Ez Ho. apply (cat_in _ _ _ Ez) in Ho as (os & H & Ho). apply zip_in in H as (n & c & d & H1 & H2 & H3). exists n, c, d, os. auto.
Qed.
Lemma made_in a b o d : In d (skipn (length (el_children a)) (el_children b)) -> In o (create_from_scratch d (Some (id_str a))) -> origin a b o.
Proof.
  intros Hd Ho. apply nth_skip in Hd as (n & Hn & Hd). apply (OMade a b o [] a b n d); auto.
Qed.
Lemma diff_origin b : forall a os, unkeyed a -> unkeyed b -> diff_to b a = Some os -> forall o, In o os -> origin a b o.
Proof.
  induction b as [bi bn ba bl bc bt bk IH] using element_ind2. intros a os Ua Ub E o Ho. set (b := Element bi bn ba bl bc bt bk) in *.
  destruct (diff_parts a b os Ua Ub E) as (z & Ez & ->). pose proof (every_children _ _ Ua) as Uc. pose proof (every_children _ _ Ub) as Ud. rewrite !in_app_iff in Ho. destruct Ho as [H|[H|[H|[H|H]]]].
  - apply (OPair a b o [] a b); auto. apply in_app_iff. auto.
  - apply in_map_iff in H as (c & <- & _). now apply ODelete.
  - destruct (zip_split _ _ _ _ Ez H) as (n & c & d & os' & H1 & H2 & H3 & H4). apply (origin_in n a b c d); auto. change (el_children b) with bc in *.
    rewrite Forall_forall in IH, Uc, Ud. pose proof (nth_error_In _ _ H1). pose proof (nth_error_In _ _ H2). apply (IH d) with (os := os'); auto; [now apply Uc|now apply Ud].
  - apply in_flat_map in H as (d & H1 & H2). now apply (made_in a b o d).
  - apply (OPair a b o [] a b); auto. apply in_app_iff. auto.
Qed.

(** What these operations say. *)
Lemma own_says c d o : In o (diff_own c d) ->
  match op_instr o with
  | SetTagName _ => op_id o = dec (el_id d) /\ el_name c <> el_name d
  | AttachListener _ _ => op_id o = dec (el_id d) /\ el_listeners c <> el_listeners d /\ el_listeners d <> []
  | SetId _ | DeleteEl | CreateTag _ _ => False
  | _ => op_id o = dec (el_id c)
  end.
Proof.
  unfold diff_own. rewrite !in_app_iff. intros [H|[H|[H|H]]].
  - unfold diff_name in H. destruct (str_eqb _ _) eqn:E; [destruct H|]. apply str_eqb_neq in E. destruct H as [<-|[]]. cbn. auto.
  - unfold diff_attributes in H. destruct (hm_eqb _ _); [destruct H|]. apply in_app_or in H as [H|H]; apply in_flat_map in H as (kv & _ & H).
    + destruct (contains_key _ _); [destruct H|]. destruct H as [<-|[]]. reflexivity.
    + destruct (get _ _); [destruct (str_eqb _ _); [destruct H|]|]; destruct H as [<-|[]]; reflexivity.
  - unfold diff_text in H. destruct (text_eqb _ _); [destruct H|]. destruct (el_text d); destruct H as [<-|[]]; reflexivity.
  - unfold diff_listeners in H. destruct (listeners_eqb _ _) eqn:E; [destruct H|].
    assert (el_listeners c <> el_listeners d) as Hne by (intros Hx; apply listeners_eqb_eq in Hx; congruence). destruct H as [<-|H]; [reflexivity|].
    unfold generate_listeners in H. apply in_map_iff in H as (l & <- & Hl). cbn. split; [reflexivity|]. split; [exact Hne|]. intros Hx. rewrite Hx in Hl. destruct Hl.
Qed.
Lemma id_says c d o : In o (diff_id c d) -> o = Op (dec (el_id c)) (SetId (dec (el_id d))) /\ el_id c <> el_id d.
Proof. unfold diff_id. destruct (N.eqb_spec (el_id c) (el_id d)) as [_|H]; [intros []|]. intros [<-|[]]. auto. Qed.
(** Every operation of a creation is addressed to a node that is created; those that fill it come from one that is not bare. *)
Lemma made_says d : forall p o, In o (create_from_scratch d p) -> exists x, In x (nodes d) /\ op_id o = dec (el_id x) /\
  match op_instr o with
  | CreateTag _ p' => p' = p \/ exists y, In y (nodes d) /\ ~ bare y /\ p' = Some (dec (el_id y))
  | SetAttribute _ _ | AttachListener _ _ | SetText _ => ~ bare x
  | _ => False
  end.
Proof.
  induction d as [i n a l cs t k IH] using element_ind2. intros p o. rewrite create_eq. set (d := Element i n a l cs t k) in *.
  assert (In d (nodes d)) as Hd by (unfold d; cbn [nodes]; now left).
  intros [<-|H]; [exists d; cbn; auto|]. apply in_app_or in H as [H|H].
  - apply in_map_iff in H as (ins & <- & H). exists d. split; [exact Hd|]. split; [reflexivity|]. cbn [op_instr]. rewrite !in_app_iff in H. destruct H as [H|[H|H]].
    + apply in_map_iff in H as (kv & <- & H). intros (B & _). cbn in B. subst a. destruct H.
    + apply in_map_iff in H as (kv & <- & H). intros (_ & B & _). cbn in B. subst l. destruct H.
    + destruct t; [|destruct H]. destruct H as [<-|[]]. intros (_ & _ & _ & B). discriminate B.
  - apply in_flat_map in H as (c & Hc & H). rewrite Forall_forall in IH. destruct (IH c Hc _ _ H) as (x & H1 & H2 & H3).
    assert (forall y, In y (nodes c) -> In y (nodes d)) as Hin by (intros y Hy; unfold d; cbn [nodes]; right; apply in_flat_map; eauto).
    exists x. split; [auto|]. split; [exact H2|]. destruct (op_instr o); auto. right. destruct H3 as [->|(y & Y1 & Y2 & Y3)]; [|eauto].
    exists d. split; [exact Hd|]. split; [|reflexivity]. intros (_ & _ & B & _). unfold d in B. cbn in B. subst cs. destruct Hc.
Qed.
Lemma every_in P e x : every P e -> In x (nodes e) -> P x.
Proof.
  revert x. induction e as [i n a l cs t k IH] using element_ind2. intros x H [<-|Hx]; [now apply every_root|]. apply every_children in H. cbn [el_children] in H.
  rewrite Forall_forall in IH, H. apply in_flat_map in Hx as (c & Hc & Hx). apply (IH c Hc x (H c Hc) Hx).
Qed.
Lemma nodes_ids e x : In x (nodes e) -> In (el_id x) (ids e).
Proof.
  revert x. induction e as [i n a l cs t k IH] using element_ind2. intros x [<-|Hx]; [now left|]. cbn [ids]. right. apply in_flat_map in Hx as (c & Hc & Hx). rewrite Forall_forall in IH.
  apply in_flat_map. exists c. auto.
Qed.
Lemma at_path_app q1 q2 : forall e, at_path (q1 ++ q2) e = match at_path q1 e with Some x => at_path q2 x | None => None end.
Proof. induction q1 as [|n q1 IH]; intros e; [reflexivity|]. cbn [app at_path]. destruct (nth_error (el_children e) n); [apply IH|reflexivity]. Qed.
Lemma level_nth W cs ds n c d : level_list W cs ds -> nth_error cs n = Some c -> nth_error ds n = Some d -> level W c d.
Proof.
  revert n ds. induction cs as [|x cs IH]; intros n ds H Hc Hd; [now destruct n|]. inversion H; subst; [now destruct n|]. destruct n; cbn in *; [congruence|eauto].
Qed.
(** The created nodes below a level pair. *)
Lemma level_made q : forall W a b c d n e, level W a b -> at_path q a = Some c -> at_path q b = Some d -> (length (el_children c) <= n)%nat -> nth_error (el_children d) n = Some e ->
  every (fun x => In (el_id x) (el_id a :: W) -> bare x) e.
Proof.
  induction q as [|m q IH]; intros W a b c d n e HL Hc Hd Hn He; inversion HL as [? ? ? _ Hl]; subst.
  - cbn in Hc, Hd. injection Hc as <-. injection Hd as <-. apply level_added in Hl. rewrite Forall_forall in Hl. apply Hl.
    replace n with (length (el_children a) + (n - length (el_children a)))%nat in He by lia. rewrite <- nth_skipn in He. now apply nth_error_In in He.
  - cbn [at_path] in *. destruct (nth_error (el_children a) m) as [x|] eqn:Ex; [|discriminate]. destruct (nth_error (el_children b) m) as [y|] eqn:Ey; [|discriminate].
    pose proof (level_nth _ _ _ _ _ _ Hl Ex Ey) as HL'. eapply every_impl; [|apply (IH _ _ _ _ _ _ _ HL' Hc Hd Hn He)]. cbn beta. intros z Hz Hi. apply Hz. now right.
Qed.
Lemma level_pair q : forall W a b c d, level W a b -> at_path q a = Some c -> at_path q b = Some d -> el_id d <= el_id c.
Proof.
  induction q as [|m q IH]; intros W a b c d HL Hc Hd; inversion HL as [? ? ? Hle Hl]; subst; cbn [at_path] in *; [congruence|].
  destruct (nth_error (el_children a) m) as [x|] eqn:Ex; [|discriminate]. destruct (nth_error (el_children b) m) as [y|] eqn:Ey; [|discriminate].
  apply (IH _ _ _ _ _ (level_nth _ _ _ _ _ _ Hl Ex Ey) Hc Hd).
Qed.
Lemma at_root_id q e c : at_path q e = Some c -> In (el_id c) (ids e).
Proof. intros H. eapply at_path_ids; [exact H|apply in_ids_root]. Qed.
Lemma nodup_nth_ids cs n c : NoDup (ids_of cs) -> nth_error cs n = Some c -> NoDup (ids c).
Proof.
  revert n. induction cs as [|x cs IH]; intros n Hn Hc; [now destruct n|]. rewrite ids_of_cons in Hn. apply nodup_app_iff in Hn as (H1 & H2 & _). destruct n; cbn in Hc; [congruence|eauto].
Qed.
(** Paths to the same id are the same. *)
Lemma same_path q : forall e q' c c', NoDup (ids e) -> at_path q e = Some c -> at_path q' e = Some c' -> el_id c = el_id c' -> q = q'.
Proof.
  induction q as [|n q IH]; intros e q' c c' Hn Hc Hc' E.
  - destruct q' as [|m q']; [reflexivity|]. exfalso. cbn in Hc. injection Hc as <-. cbn [at_path] in Hc'. destruct (nth_error (el_children e) m) as [x|] eqn:Ex; [|discriminate].
    apply at_root_id in Hc'. rewrite <- E in Hc'. destruct e as [i nm a l cs t k]. cbn [ids el_id el_children] in *. inversion Hn as [|? ? H1 _]; subst. apply H1, in_flat_map. exists x. split; [now apply nth_error_In in Ex|exact Hc'].
  - cbn [at_path] in Hc. destruct (nth_error (el_children e) n) as [x|] eqn:Ex; [|discriminate]. destruct e as [i nm a l cs t k]. cbn [ids el_id el_children] in *. inversion Hn as [|? ? H1 H2]; subst.
    destruct q' as [|m q'].
    + exfalso. cbn in Hc'. injection Hc' as <-. cbn [el_id] in E. apply at_root_id in Hc. rewrite E in Hc. apply H1, in_flat_map. exists x. split; [now apply nth_error_In in Ex|exact Hc].
    + cbn [at_path el_children] in Hc'. destruct (nth_error cs m) as [y|] eqn:Ey; [|discriminate]. change (flat_map ids cs) with (ids_of cs) in H2.
      assert (n = m) as -> by (apply (nodup_nth cs n m x y (el_id c) H2 Ex Ey); [eapply at_root_id; eauto|rewrite E; eapply at_root_id; eauto]).
      rewrite Ex in Ey. injection Ey as <-. f_equal. apply (IH x q' c c'); auto. eapply nodup_nth_ids; eauto.
Qed.

(** *** Before and after a node gets its new id *)
Definition before (k : N) (o : op) : Prop := match op_instr o with SetId _ | AttachListener _ _ => op_id o <> dec k | _ => True end.
Definition after (k k' : N) (o : op) : Prop := match op_instr o with SetId _ => op_id o <> dec k | SetTagName _ | AttachListener _ _ => op_id o <> dec k' | _ => True end.
(** The ids an operation is about, by kind. *)
Lemma origin_where a b o : origin a b o -> match op_instr o with
  | SetId _ => exists y, op_id o = dec y /\ In y (ids a)
  | SetTagName _ | AttachListener _ _ => exists y, op_id o = dec y /\ In y (ids b)
  | _ => True end.
Proof.
  intros [q c d H1 H2 H3|H|q c d n e H1 H2 H3 H4 H5].
  - apply in_app_or in H3 as [H|H].
    + apply own_says in H. destruct (op_instr o); try exact I; try contradiction; destruct H as [H _]; eexists; (split; [exact H|]); eapply at_root_id; eauto.
    + apply id_says in H as [-> _]. cbn. eexists. split; [reflexivity|]. eapply at_root_id; eauto.
  - now rewrite H.
  - apply made_says in H5 as (x & Hx & Ho & H5). destruct (op_instr o); try exact I; try contradiction. eexists. split; [exact Ho|].
    apply nodes_ids in Hx. eapply at_path_ids; [exact H2|]. apply in_ids_kids. unfold ids_of. apply in_flat_map. exists e. split; [now apply nth_error_In in H4|exact Hx].
Qed.
Lemma zip_app_some ds1 cs1 d c ds2 cs2 z : length ds1 = length cs1 -> cat_ops (zip_ops (ds1 ++ d :: ds2) (cs1 ++ c :: cs2)) = Some z ->
  exists z1 o z2, z = z1 ++ o ++ z2 /\ cat_ops (zip_ops ds1 cs1) = Some z1 /\ diff_to d c = Some o /\ cat_ops (zip_ops ds2 cs2) = Some z2.
Proof.
  intros Hl. rewrite zip_app by exact Hl. cbn [zip_ops]. rewrite cat_app. destruct (cat_ops (zip_ops ds1 cs1)) as [z1|]; [|discriminate]. cbn [cat_ops]. destruct (diff_to d c) as [o|]; [|discriminate].
  destruct (cat_ops (zip_ops ds2 cs2)) as [z2|]; [|discriminate]. intros [= <-]. exists z1, o, z2. auto.
Qed.
Lemma zip_origin z ds cs o : Forall unkeyed cs -> Forall unkeyed ds -> cat_ops (zip_ops ds cs) = Some z -> In o z -> exists c d, In c cs /\ In d ds /\ origin c d o.
Proof.
  intros Uc Ud Ez Ho. destruct (zip_split _ _ _ _ Ez Ho) as (n & c & d & os & H1 & H2 & H3 & H4). exists c, d. rewrite Forall_forall in Uc, Ud. apply nth_error_In in H1, H2.
  repeat split; auto. eapply diff_origin; eauto.
Qed.
Lemma origin_in_list C D c d o : In c C -> In d D -> origin c d o -> match op_instr o with
  | SetId _ => exists y, op_id o = dec y /\ In y (ids_of C)
  | SetTagName _ | AttachListener _ _ => exists y, op_id o = dec y /\ In y (ids_of D)
  | _ => True end.
Proof.
  intros Hc Hd H. apply origin_where in H. destruct (op_instr o); auto; destruct H as (y & E & Hy); exists y; (split; [exact E|]); unfold ids_of; apply in_flat_map; eauto.
Qed.
Lemma made_in_list ds p o : In o (flat_map (fun d => create_from_scratch d p) ds) -> match op_instr o with
  | SetId _ | SetTagName _ => False
  | AttachListener _ _ => exists y, op_id o = dec y /\ In y (ids_of ds)
  | _ => True end.
Proof.
  intros H. apply in_flat_map in H as (d & Hd & H). apply made_says in H as (x & Hx & Ho & H). destruct (op_instr o); auto. exists (el_id x). split; [exact Ho|]. apply nodes_ids in Hx.
  unfold ids_of. apply in_flat_map. eauto.
Qed.

Lemma timeline q : forall W a b c d os i j i' j', numbered i a j -> numbered i' b j' -> unkeyed a -> unkeyed b -> level W a b -> diff_to b a = Some os ->
  at_path q a = Some c -> at_path q b = Some d -> el_id c <> el_id d ->
  (forall q2 c2 d2, at_path q2 c = Some c2 -> at_path q2 d = Some d2 -> el_id c2 <> el_id d2 -> el_id c < el_id c2 -> el_listeners c2 = el_listeners d2 \/ el_listeners d2 = []) ->
  exists A B, os = A ++ Op (dec (el_id c)) (SetId (dec (el_id d))) :: B /\ (forall o, In o A -> before (el_id c) o) /\ (forall o, In o B -> after (el_id c) (el_id d) o).
Proof.
  induction q as [|n q IH]; intros W a b c d os i j i' j' Na Nb Ua Ub HL E Hc Hd Hne Hlast.
  - cbn in Hc, Hd. injection Hc as <-. injection Hd as <-. pose proof (level_pair [] _ _ _ _ _ HL eq_refl eq_refl) as Hle.
    destruct (diff_parts a b os Ua Ub E) as (z & Ez & ->).
    exists (diff_own a b ++ map (fun c => Op (id_str c) DeleteEl) (skipn (length (el_children b)) (el_children a)) ++ z
         ++ flat_map (fun d => create_from_scratch d (Some (id_str a))) (skipn (length (el_children a)) (el_children b))), [].
    split. { rewrite <- !app_assoc. do 4 f_equal. unfold diff_id. destruct (N.eqb_spec (el_id a) (el_id b)); [contradiction|reflexivity]. }
    split; [|intros o []]. intros o Ho.
    assert (NoDup (ids a)) as NDa by now apply numbered_range in Na.
    assert (numbered_list (el_id a + 1) (el_children a) j) as Nk by (inversion Na; subst; assumption). apply numbered_list_range in Nk as (_ & Rk & _).
    assert (forall c2 d2 o2, (exists n q2 x y, nth_error (el_children a) n = Some x /\ nth_error (el_children b) n = Some y /\ at_path q2 x = Some c2 /\ at_path q2 y = Some d2) -> In o2 (diff_own c2 d2 ++ diff_id c2 d2) -> before (el_id a) o2) as Hpair.
    { intros c2 d2 o2 (m & q2 & x & y & X1 & X2 & X3 & X4) Ho2.
      assert (In (el_id c2) (ids_of (el_children a))) as Hi by (unfold ids_of; apply in_flat_map; exists x; split; [now apply nth_error_In in X1|eapply at_root_id; eauto]).
      apply Rk in Hi. apply in_app_or in Ho2 as [Ho2|Ho2].
      - apply own_says in Ho2. unfold before. destruct (op_instr o2); auto; try contradiction. destruct Ho2 as (-> & L1 & L2). intros Ed. apply dec_inj in Ed.
        destruct (Hlast (m :: q2) c2 d2) as [H|H]; try contradiction; cbn [at_path]; [now rewrite X1|now rewrite X2|lia|lia].
      - apply id_says in Ho2 as [-> _]. unfold before. cbn. intros Ed. apply dec_inj in Ed. lia. }
    assert (forall n q2 x y c2 d2 e, nth_error (el_children a) n = Some x -> nth_error (el_children b) n = Some y -> at_path q2 x = Some c2 -> at_path q2 y = Some d2 ->
      forall m, (length (el_children c2) <= m)%nat -> nth_error (el_children d2) m = Some e -> forall p o2, In o2 (create_from_scratch e p) -> before (el_id a) o2) as Hmade.
    { intros n q2 x y c2 d2 e X1 X2 X3 X4 m Hm He p o2 Ho2. apply made_says in Ho2 as (u & Hu & Eu & H). unfold before. destruct (op_instr o2); auto; try contradiction.
      rewrite Eu. intros Ed. apply dec_inj in Ed. apply H. assert (every (fun x => In (el_id x) (el_id a :: W) -> bare x) e) as Hev.
      { apply (level_made (n :: q2) W a b c2 d2 m e); auto; cbn [at_path]; [now rewrite X1|now rewrite X2]. }
      apply (every_in _ _ _ Hev Hu). rewrite Ed. now left. }
    rewrite !in_app_iff in Ho. destruct Ho as [H|[H|[H|H]]].
    + apply own_says in H. unfold before. destruct (op_instr o); auto; try contradiction. destruct H as (-> & _). intros Ed. apply dec_inj in Ed. congruence.
    + apply in_map_iff in H as (x & <- & _). exact I.
    + destruct (zip_split _ _ _ _ Ez H) as (m & x & y & os' & X1 & X2 & X3 & X4). pose proof (every_children _ _ Ua) as Uc. pose proof (every_children _ _ Ub) as Ud. rewrite Forall_forall in Uc, Ud.
      destruct (diff_origin y x os' (Uc _ (nth_error_In _ _ X1)) (Ud _ (nth_error_In _ _ X2)) X3 o X4) as [q2 c2 d2 Y1 Y2 Y3|Y|q2 c2 d2 m2 e Y1 Y2 Y3 Y4 Y5].
      * apply (Hpair c2 d2); [|exact Y3]. exists m, q2, x, y. auto.
      * unfold before. now rewrite Y.
      * eapply (Hmade m q2 x y c2 d2 e X1 X2 Y1 Y2 m2 Y3 Y4). exact Y5.
    + apply in_flat_map in H as (e & He & H). apply made_says in H as (u & Hu & Eu & H). unfold before. destruct (op_instr o); auto; try contradiction. rewrite Eu. intros Ed. apply dec_inj in Ed. apply H.
      inversion HL as [? ? ? _ Hl]; subst. apply level_added in Hl. rewrite Forall_forall in Hl. apply (every_in _ _ _ (Hl e He) Hu). rewrite Ed. now left.
  - cbn [at_path] in Hc, Hd. destruct (nth_error (el_children a) n) as [x|] eqn:Ex; [|discriminate]. destruct (nth_error (el_children b) n) as [y|] eqn:Ey; [|discriminate].
    apply nth_error_split in Ex as (C & C2 & Ea & HlC). apply nth_error_split in Ey as (D & D2 & Eb & HlD).
    pose proof (every_children _ _ Ua) as Uc. pose proof (every_children _ _ Ub) as Ud. inversion HL as [? ? ? Hle Hl]; subst W0 a0 b0.
    assert (numbered_list (el_id a + 1) (el_children a) j) as Nac by (inversion Na; subst; assumption). assert (numbered_list (el_id b + 1) (el_children b) j') as Nbc by (inversion Nb; subst; assumption).
    destruct (diff_parts a b os Ua Ub E) as (z & Ez & ->). rewrite Ea, Eb in *. 
    assert (level (el_id a :: W) x y) as Hxy by (apply (level_nth _ _ _ n _ _ Hl); [rewrite nth_error_app2 by lia; now rewrite HlC, Nat.sub_diag|rewrite nth_error_app2 by lia; now rewrite HlD, Nat.sub_diag]).
    apply Forall_app in Uc as [UC UC2], Ud as [UD UD2]. inversion UC2 as [|? ? Ux UC3]; subst. inversion UD2 as [|? ? Uy UD3]; subst.
    apply numbered_list_app in Nac as (m & NC & NC2), Nbc as (m' & ND & ND2). apply numbered_cons in NC2 as (jx & Nx & NC3), ND2 as (jy & Ny & ND3).
    destruct (zip_app_some _ _ _ _ _ _ _ HlD Ez) as (z1 & o1 & z2 & -> & E1 & Eo & E2).
    destruct (IH (el_id a :: W) x y c d o1 m jx m' jy Nx Ny Ux Uy Hxy Eo Hc Hd Hne Hlast) as (A & B & -> & HA & HB).
    pose proof (level_pair q _ _ _ _ _ Hxy Hc Hd) as Hkk. pose proof (level_pair [] _ _ _ _ _ Hxy eq_refl eq_refl) as Hxyid.
    apply numbered_range in Nx as (Rx1 & Rx2 & Rx3 & _), Ny as (Ry1 & Ry2 & Ry3 & _). pose proof (at_root_id _ _ _ Hc) as Ic. pose proof (at_root_id _ _ _ Hd) as Id. apply Rx3 in Ic. apply Ry3 in Id.
    assert (el_id a < m /\ el_id b < m') as [Ham Hbm] by (apply numbered_list_range in NC as (? & _), ND as (? & _); lia).
    apply numbered_list_range in NC as (_ & RC & _), ND as (_ & RD & _), NC3 as (_ & RC3 & _), ND3 as (_ & RD3 & _).
    match goal with |- exists _ _, ?X ++ ?Y ++ _ ++ ?Z ++ ?V = _ /\ _ => exists (X ++ Y ++ z1 ++ A), (B ++ z2 ++ Z ++ V) end.
    split. { rewrite <- !app_assoc. cbn [app]. rewrite <- ?app_assoc. reflexivity. }
    split.
    + intros o Ho. rewrite !in_app_iff in Ho. destruct Ho as [H|[H|[H|H]]]; [| | |now apply HA].
      * apply own_says in H. unfold before. destruct (op_instr o); auto; try contradiction. destruct H as (-> & _). intros Ed. apply dec_inj in Ed. lia.
      * apply in_map_iff in H as (w & <- & _). exact I.
      * destruct (zip_origin _ _ _ _ UC UD E1 H) as (c2 & d2 & Hc2 & Hd2 & Ho). apply (origin_in_list C D) in Ho; auto. unfold before. destruct (op_instr o); auto; destruct Ho as (w & -> & Hw); intros Ed; apply dec_inj in Ed; [apply RC in Hw|apply RD in Hw]; lia.
    + intros o Ho. rewrite !in_app_iff in Ho. destruct Ho as [H|[H|[H|H]]]; [now apply HB| | |].
      * destruct (zip_origin _ _ _ _ UC3 UD3 E2 H) as (c2 & d2 & Hc2 & Hd2 & Ho). apply (origin_in_list C2 D2) in Ho; auto. unfold after. destruct (op_instr o); auto; destruct Ho as (w & -> & Hw); intros Ed; apply dec_inj in Ed; [apply RC3 in Hw|apply RD3 in Hw|apply RD3 in Hw]; lia.
      * apply made_in_list in H. unfold after. destruct (op_instr o); auto; try contradiction. destruct H as (w & -> & Hw). intros Ed. apply dec_inj in Ed.
        rewrite app_length in Hw. cbn [length] in Hw. rewrite skipn_app in Hw. rewrite skipn_all2 in Hw by lia. cbn [app] in Hw. replace (length C + S (length C2) - length D)%nat with (S (length C2)) in Hw by lia. cbn [skipn] in Hw.
        apply in_ids_skipn in Hw. apply RD3 in Hw. lia.
      * apply id_says in H as [-> _]. unfold after. cbn. intros Ed. apply dec_inj in Ed. lia.
Qed.

(** *** The same page with other keys *)
Inductive rek : element -> element -> Prop :=
| Rek i n a l cs1 cs2 t k1 k2 : Forall2 rek cs1 cs2 -> rek (Element i n a l cs1 t k1) (Element i n a l cs2 t k2).
Lemma rek_refl e : rek e e.
Proof. induction e as [i n a l cs t k IH] using element_ind2. constructor. induction IH; constructor; auto. Qed.
Lemma reks_refl l : Forall2 rek l l.
Proof. induction l; constructor; auto using rek_refl. Qed.
Lemma rek_view x e : rek x e -> view x e.
Proof.
  revert x. induction e as [i n a l cs t k IH] using element_ind2. intros x H. inversion H as [? ? ? ? cs1 ? ? ? ? Hc]; subst. constructor; [apply hm_equiv_refl|]. clear H.
  revert cs1 Hc. induction IH; intros cs1 Hc; inversion Hc; subst; constructor; auto.
Qed.
Lemma rek_id x e : rek x e -> el_id x = el_id e.
Proof. intros []. reflexivity. Qed.
Lemma reks_views xs es : Forall2 rek xs es -> Forall2 view xs es.
Proof. induction 1; constructor; auto using rek_view. Qed.
Lemma mutate_rek i f : (forall u v u', rek u v -> f u = Some u' -> exists v', f v = Some v' /\ rek u' v') ->
  forall x y x', rek x y -> mutate i f x = Some x' -> exists y', mutate i f y = Some y' /\ rek x' y'.
Proof.
  intros Hf. induction x as [r n a l cs t k IH] using element_ind2. intros y x' Hr Hm. apply mutate_cases in Hm as [[E Hm]|(Hne & L1 & c & c' & L2 & E & -> & Hn & Hm)].
  - destruct (Hf _ _ _ Hr Hm) as (v' & H1 & H2). exists v'. split; [|exact H2]. rewrite mutate_root; auto. rewrite <- E. symmetry. now apply rek_id.
  - inversion Hr as [? ? ? ? ? cs2 ? ? k2 Hc]; subst. cbn [el_children el_id] in *. subst cs. apply Forall2_app_inv_l in Hc as (M1 & M2 & H1 & H2 & ->). inversion H2 as [|? d ? M3 Hd H3]; subst.
    rewrite Forall_forall in IH. destruct (IH c ltac:(apply in_app_iff; right; now left) d c' Hd Hm) as (d' & Em & Hd').
    exists (Element r n a l (M1 ++ d' :: M3) t k2). split.
    + apply mutate_lift; auto. now rewrite <- (views_ids _ _ (reks_views _ _ H1)).
    + constructor. apply Forall2_app; [exact H1|]. now constructor.
Qed.
Lemma position_rek j xs es : Forall2 rek xs es -> position (fun c => N.eqb (el_id c) j) xs = position (fun c => N.eqb (el_id c) j) es.
Proof. induction 1 as [|x e xs es H _ IH]; [reflexivity|]. cbn [position]. now rewrite (rek_id _ _ H), IH. Qed.
Lemma parent_rek x : forall y i, rek x y -> find_parent_id x i = find_parent_id y i.
Proof.
  induction x as [r n a l cs t k IH] using element_ind2. intros y i H. inversion H as [? ? ? ? ? cs2 ? ? k2 Hc]; subst. rewrite !find_parent_eq. clear H.
  revert cs2 Hc. induction IH as [|c cs H _ IHc]; intros cs2 Hc; inversion Hc; subst; [reflexivity|]. cbn [parent_list]. rewrite (rek_id _ _ H2), (H _ i H2), (IHc _ H4). reflexivity.
Qed.
Lemma forall2_skip {A B} (R : A -> B -> Prop) n : forall l l', Forall2 R l l' -> Forall2 R (skipn n l) (skipn n l').
Proof. induction n as [|n IH]; intros l l' H; [exact H|]. destruct H; cbn; [constructor|auto]. Qed.
Lemma apply_op_rek max o x y x' : usual o -> rek x y -> apply_op max o x = Some x' -> exists y', apply_op max o y = Some y' /\ rek x' y'.
Proof.
  intros Hu Hr. unfold usual in Hu. unfold apply_op. destruct (parse_uint max (op_id o)) as [i|]; [|discriminate].
  destruct (op_instr o) eqn:Eo; try contradiction; try (apply mutate_rek; [|exact Hr]; intros u v u' [] [= <-]; eexists; split; [reflexivity|]; cbn; now constructor).
  - destruct (parse_uint max value) as [v|]; [|discriminate]. apply mutate_rek; [|exact Hr]. intros u w u' [] [= <-]; eexists; split; [reflexivity|]; cbn; now constructor.
  - destruct parent_id as [p|]; [|discriminate]. destruct (parse_uint max p) as [j|]; [|discriminate]. apply mutate_rek; [|exact Hr].
    intros u w u' [] [= <-]; eexists; split; [reflexivity|]; cbn. constructor. apply Forall2_app; [assumption|]. constructor; [apply rek_refl|constructor].
  - rewrite (parent_rek _ _ i Hr). destruct (find_parent_id y i) as [p|]; [|discriminate]. apply mutate_rek; [|exact Hr].
    intros u w u' [? ? ? ? cs1 cs2 ? ? ? Hc]. cbn [el_children]. rewrite (position_rek i _ _ Hc). destruct (position _ _) as [q|]; [|discriminate]. intros [= <-]. eexists. split; [reflexivity|]. cbn.
    constructor. unfold remove_at. apply Forall2_app; [now apply forall2_firstn|now apply forall2_skip].
Qed.
Lemma apply_rek max os : Forall usual os -> forall x y x', rek x y -> apply max os x = Some x' -> exists y', apply max os y = Some y' /\ rek x' y'.
Proof.
  induction 1 as [|o os Ho _ IH]; intros x y x' Hr; cbn [apply]; [intros [= <-]; eauto|]. destruct (apply_op max o x) as [x1|] eqn:E; [|discriminate]. intros H.
  destruct (apply_op_rek max o x y x1 Ho Hr E) as (y1 & -> & Hr1). eapply IH; eauto.
Qed.
(** A page with one node marked. *)
Definition marked (Q : N -> str -> list listener -> Prop) (x : element) : Prop := el_key x <> None -> Q (el_id x) (el_name x) (el_listeners x).
Lemma unkeyed_marked Q e : unkeyed e -> every (marked Q) e.
Proof. apply every_impl. intros x Hx H. now rewrite Hx in H. Qed.
Lemma tagged q : forall a c, unkeyed a -> at_path q a = Some c -> exists x y, rek a x /\ at_path q x = Some y /\ el_key y <> None /\
  every (marked (fun i n l => i = el_id c /\ n = el_name c /\ l = el_listeners c)) x.
Proof.
  induction q as [|n q IH]; intros a c Ua Hc.
  - cbn in Hc. injection Hc as <-. destruct a as [i nm at_ l cs t k]. exists (Element i nm at_ l cs t (Some [])), (Element i nm at_ l cs t (Some [])).
    split; [constructor; apply reks_refl|]. split; [reflexivity|]. split; [discriminate|]. constructor; [intros _; cbn; auto|]. cbn [el_children]. apply every_children in Ua. cbn [el_children] in Ua.
    eapply Forall_impl; [|exact Ua]. intros e. apply unkeyed_marked.
  - cbn [at_path] in Hc. destruct (nth_error (el_children a) n) as [u|] eqn:Eu; [|discriminate]. apply nth_error_split in Eu as (L1 & L2 & E & Hl).
    pose proof (every_children _ _ Ua) as Uc. pose proof (every_root _ _ Ua) as Uk. destruct a as [i nm at_ l cs t k]. cbn [el_children el_key] in *. subst cs. cbn beta in Uk. cbn in Uk. subst k. apply Forall_app in Uc as [U1 U2]. inversion U2 as [|? ? Uu U3]; subst.
    destruct (IH u c Uu Hc) as (x & y & H1 & H2 & H3 & H4). exists (Element i nm at_ l (L1 ++ x :: L2) t None), y. split; [|split; [|split; [exact H3|]]].
    + constructor. apply Forall2_app; [apply reks_refl|]. constructor; [exact H1|apply reks_refl].
    + cbn [at_path el_children]. rewrite nth_error_app2, Nat.sub_diag by lia. exact H2.
    + constructor; [intros Hx; now cbn in Hx|]. cbn [el_children]. apply Forall_app. split; [|constructor; [exact H4|]]; (eapply Forall_impl; [|eassumption]); intros e; apply unkeyed_marked.
Qed.
(** *** What operations do to marked nodes *)
Definition respects (Q : N -> str -> list listener -> Prop) (o : op) : Prop :=
  match op_instr o with
  | SetId v => exists y u, op_id o = dec y /\ v = dec u /\ forall n l, Q y n l -> Q u n l
  | SetTagName n => exists y, op_id o = dec y /\ forall n0 l, Q y n0 l -> Q y n l
  | AttachListener nm ev => exists y, op_id o = dec y /\ forall n l, Q y n l -> Q y n (l ++ [Listener nm ev])
  | RemoveListeners => forall i n l, Q i n l -> Q i n []
  | _ => True
  end.
Lemma mutate_every Q i f : (forall x y, el_id x = i -> every (marked Q) x -> f x = Some y -> every (marked Q) y) -> forall e e', every (marked Q) e -> mutate i f e = Some e' -> every (marked Q) e'.
Proof.
  intros Hf. induction e as [r n a l cs t k IH] using element_ind2. intros e' He Hm. apply mutate_cases in Hm as [[E Hm]|(Hne & L1 & c & c' & L2 & E & -> & Hn & Hm)]; [now apply (Hf _ _ E He)|].
  inversion He as [? H1 H2]; subst. cbn [el_children with_children] in *. subst cs. constructor; [exact H1|]. cbn [el_children]. apply Forall_app in H2 as [H2 H3]. inversion H3; subst. apply Forall_app. split; [exact H2|].
  constructor; [|assumption]. rewrite Forall_forall in IH. apply (IH c); auto. apply in_app_iff. right. now left.
Qed.
Lemma marked_op max Q o e e' : usual o -> respects Q o -> every (marked Q) e -> apply_op max o e = Some e' -> every (marked Q) e'.
Proof.
  intros Hu Hr He. unfold usual in Hu. unfold respects in Hr. unfold apply_op. destruct (parse_uint max (op_id o)) as [i|] eqn:Ei; [|discriminate].
  destruct (op_instr o) eqn:Eo; try contradiction.
  all: try (apply mutate_every; [|exact He]; intros [x1 x2 x3 x4 x5 x6 x7] y Hid Hx [= <-]; inversion Hx as [? H1 H2]; subst; constructor; cbn [el_children with_attrs with_text] in *; assumption).
  - destruct (parse_uint max value) as [v|] eqn:Ev; [|discriminate]. destruct Hr as (y & u & Ey & -> & Hr). rewrite Ey in Ei. apply parse_dec_only in Ei, Ev. subst i v.
    apply mutate_every; [|exact He]. intros [x1 x2 x3 x4 x5 x6 x7] z Hid Hx [= <-]. inversion Hx as [? H1 H2]; subst. constructor; [|exact H2]. unfold marked in *. cbn in *. intros Hk. auto.
  - destruct Hr as (y & Ey & Hr). rewrite Ey in Ei. apply parse_dec_only in Ei. subst i.
    apply mutate_every; [|exact He]. intros [x1 x2 x3 x4 x5 x6 x7] z Hid Hx [= <-]. inversion Hx as [? H1 H2]; subst. constructor; [|exact H2]. unfold marked in *. cbn in *. intros Hk. eauto.
  - destruct parent_id as [p|]; [|discriminate]. destruct (parse_uint max p) as [j|]; [|discriminate].
    apply mutate_every; [|exact He]. intros [x1 x2 x3 x4 x5 x6 x7] z Hid Hx [= <-]. inversion Hx as [? H1 H2]; subst. constructor; [exact H1|]. cbn [el_children with_children] in *. apply Forall_app. split; [exact H2|].
    constructor; [|constructor]. constructor; [intros Hk; now cbn in Hk|constructor].
  - apply mutate_every; [|exact He]. intros [x1 x2 x3 x4 x5 x6 x7] z Hid Hx [= <-]. inversion Hx as [? H1 H2]; subst. constructor; [|exact H2]. unfold marked in *. cbn in *. intros Hk. eauto.
  - destruct Hr as (y & Ey & Hr). rewrite Ey in Ei. apply parse_dec_only in Ei. subst i.
    apply mutate_every; [|exact He]. intros [x1 x2 x3 x4 x5 x6 x7] z Hid Hx [= <-]. inversion Hx as [? H1 H2]; subst. constructor; [|exact H2]. unfold marked in *. cbn in *. intros Hk. eauto.
  - destruct (find_parent_id e i) as [p|]; [|discriminate]. apply mutate_every; [|exact He]. intros [x1 x2 x3 x4 x5 x6 x7] z Hid Hx. cbn [el_children]. destruct (position _ _) as [q|]; [|discriminate]. intros [= <-].
    inversion Hx as [? H1 H2]; subst. constructor; [exact H1|]. cbn [el_children with_children] in *. unfold remove_at. rewrite <- (firstn_skipn q x5) in H2. apply Forall_app in H2 as [H2 H3]. apply Forall_app. split; [exact H2|].
    rewrite <- (firstn_skipn (S q) x5) in H2. clear -Hx. inversion Hx as [? _ H]; subst. cbn [el_children] in H. rewrite <- (firstn_skipn (S q) x5) in H. now apply Forall_app in H.
Qed.
Lemma marked_apply max Q os : Forall usual os -> Forall (respects Q) os -> forall e e', every (marked Q) e -> apply max os e = Some e' -> every (marked Q) e'.
Proof.
  induction 1 as [|o os Hu _ IH]; intros Hr e e' He; cbn [apply]; [intros [= <-]; exact He|]. inversion Hr; subst. destruct (apply_op max o e) as [e1|] eqn:E; [|discriminate].
  apply IH; auto. eapply marked_op; eauto.
Qed.

Lemma view_at q : forall x e z d, view x e -> at_path q x = Some z -> at_path q e = Some d -> view z d.
Proof.
  induction q as [|n q IH]; intros x e z d V Hz Hd; [cbn in *; congruence|]. inversion V as [i nm a1 a2 l cs1 cs2 t k1 k2 _ Hc]; subst. cbn [at_path el_children] in *.
  destruct (nth_error cs1 n) as [u|] eqn:Eu; [|discriminate]. destruct (nth_error cs2 n) as [v|] eqn:Ev; [|discriminate]. apply (IH u v); auto. clear -Hc Eu Ev. revert n Eu Ev.
  induction Hc; intros n Eu Ev; destruct n; cbn in *; try discriminate; [congruence|eauto].
Qed.
Lemma view_has q : forall x e d, view x e -> at_path q e = Some d -> exists z, at_path q x = Some z.
Proof.
  induction q as [|n q IH]; intros x e d V Hd; [cbn; eauto|]. inversion V as [i nm a1 a2 l cs1 cs2 t k1 k2 _ Hc]; subst. cbn [at_path el_children] in *.
  destruct (nth_error cs2 n) as [v|] eqn:Ev; [|discriminate]. apply nth_error_split in Ev as (L1 & L2 & -> & <-). apply Forall2_app_inv_r in Hc as (M1 & M2 & H1 & H2 & ->). inversion H2 as [|u ? M3 ? Hu H3]; subst.
  rewrite nth_error_app2 by (apply forall2_len in H1; lia). apply forall2_len in H1. rewrite H1, Nat.sub_diag. cbn [nth_error]. eauto.
Qed.
Lemma every_in_path P q : forall e z, every P e -> at_path q e = Some z -> P z.
Proof.
  induction q as [|n q IH]; intros e z He Hz; [cbn in Hz; injection Hz as <-; now apply every_root|]. cbn [at_path] in Hz. destruct (nth_error (el_children e) n) as [u|] eqn:Eu; [|discriminate].
  apply (IH u); auto. apply every_children in He. rewrite Forall_forall in He. apply He. now apply nth_error_In in Eu.
Qed.
Section Kept.
Context (max : N) (W : list N) (a b b' : element) (i j i' j' : N) (os : list op).
Context (Na : numbered i a j) (Nb : numbered i' b j') (Ua : unkeyed a) (Ub : unkeyed b) (Pa : proper max a) (Pb : proper max b) (HL : level W a b).
Context (E : diff_to b a = Some os) (Ha : apply max os a = Some b') (V : view b' b).

Lemma kept_node q c d (Q0 : str -> list listener -> Prop) : at_path q a = Some c -> at_path q b = Some d -> el_id c <> el_id d ->
  (forall q2 c2 d2, at_path q2 c = Some c2 -> at_path q2 d = Some d2 -> el_id c2 <> el_id d2 -> el_id c < el_id c2 -> el_listeners c2 = el_listeners d2 \/ el_listeners d2 = []) ->
  (forall n l, Q0 n l -> Q0 n []) -> (forall n0, In (Op (dec (el_id c)) (SetTagName n0)) os -> forall n l, Q0 n l -> Q0 n0 l) ->
  Q0 (el_name c) (el_listeners c) -> Q0 (el_name d) (el_listeners d).
Proof.
  intros Hc Hd Hne Hlast Q1 Q2 Q3. pose proof (level_pair _ _ _ _ _ _ HL Hc Hd) as Hle.
  destruct (timeline q W a b c d os i j i' j' Na Nb Ua Ub HL E Hc Hd Hne Hlast) as (A & B & EAB & HA & HB).
  pose proof (diff_usual _ _ _ Ua Ub E) as Hus. pose proof (diff_origin b a os Ua Ub E) as Hor.
  destruct (tagged q a c Ua Hc) as (x & y & Hx & Hy & Ky & Mx).
  destruct (apply_rek max os Hus a x b' Hx Ha) as (b2 & Ha2 & Hr2).
  assert (view b2 b) as V2 by (apply view_trans with b'; [apply view_sym, rek_view; exact Hr2|exact V]).
  assert (view x a) as Vx by (apply view_sym, rek_view; exact Hx).
  pose proof (level_keys max W a b i j i' j' os x b2 Na Nb Ua Ub Pa Pb HL E Vx Ha2) as Mk.
  destruct (view_has q b2 b d V2 Hd) as (z & Hz). pose proof (view_at q _ _ _ _ V2 Hz Hd) as Vz.
  assert (el_key z <> None) as Kz.
  { assert (same_key (sk y) (sk z)) as Hs by (apply (paths_matched same_key q (sk x) (sk b2)); [exact Mk|now rewrite sk_at, Hy|now rewrite sk_at, Hz]). unfold same_key in Hs. rewrite !sk_key in Hs. congruence. }
  set (k := el_id c) in *. set (k' := el_id d) in *.
  set (QA := fun (n : N) nm ls => n = k /\ Q0 nm ls). set (QM := fun (n : N) nm ls => (n = k \/ n = k') /\ Q0 nm ls). set (QB := fun (n : N) nm ls => n = k' /\ Q0 nm ls \/ n = k \/ n < k').
  assert (every (marked QB) b2) as Mb.
  { assert (forall o, In o os -> match op_instr o with
      | SetId v => exists y u, op_id o = dec y /\ v = dec u /\ u < y
      | SetTagName _ | AttachListener _ _ => exists y, op_id o = dec y
      | _ => True end) as Hform.
    { intros o Ho. destruct (Hor o Ho) as [q2 c2 d2 X1 X2 X3|X|q2 c2 d2 n e X1 X2 X3 X4 X5].
      - pose proof (level_pair _ _ _ _ _ _ HL X1 X2) as Hle2. apply in_app_or in X3 as [X3|X3].
        + apply own_says in X3. destruct (op_instr o); auto; try contradiction; destruct X3 as [X3 _]; eauto.
        + apply id_says in X3 as [-> X3]. cbn. exists (el_id c2), (el_id d2). repeat split; lia.
      - now rewrite X.
      - apply made_says in X5 as (u & _ & Xo & X5). destruct (op_instr o); auto; try contradiction. eauto. }
    rewrite EAB in Ha2, Hus. rewrite apply_app in Ha2. destruct (apply max A x) as [x1|] eqn:E1; [|discriminate]. cbn [apply] in Ha2. destruct (apply_op max _ x1) as [x2|] eqn:E2 in Ha2; [|discriminate].
    apply Forall_app in Hus as [UA UB]. pose proof (Forall_inv UB) as U1. pose proof (Forall_inv_tail UB) as UB2.
    assert (every (marked QA) x1) as M1.
    { apply (marked_apply max QA A UA) with (e := x); [|eapply every_impl; [|exact Mx]; unfold marked; intros u Hu Hk; destruct (Hu Hk) as (H1 & H2 & H3); split; [exact H1|now rewrite H2, H3]|exact E1].
      apply Forall_forall. intros o Ho. pose proof (HA o Ho) as Hb. assert (In o os) as Hin by (rewrite EAB; apply in_app_iff; auto). specialize (Hform o Hin). unfold before in Hb. unfold respects, QA.
      destruct o as [oi oo]. cbn [op_instr op_id] in *. destruct oo; auto.
      - destruct Hform as (u & v & H1 & H2 & H3). exists u, v. repeat split; auto; intros; destruct H as [-> _]; contradiction.
      - destruct Hform as (u & ->). exists u. split; [reflexivity|]. intros n0 l [-> H]. split; [reflexivity|]. eapply Q2; eauto.
      - intros n1 n2 l [-> H]. eauto.
      - destruct Hform as (u & H1). exists u. split; [exact H1|]. intros n0 l [-> H]. contradiction. }
    assert (every (marked QM) x2) as M2.
    { apply (marked_op max QM _ x1 x2 U1); [|eapply every_impl; [|exact M1]; unfold marked, QA, QM; intros u Hu Hk; destruct (Hu Hk); auto|exact E2].
      cbn. exists k, k'. split; [reflexivity|]. split; [reflexivity|]. unfold QM. intros n l [_ H]. auto. }
    apply (marked_apply max QB B UB2) with (e := x2); [|eapply every_impl; [|exact M2]; unfold marked, QM, QB; intros u Hu Hk; destruct (Hu Hk) as [[H1|H1] H2]; rewrite H1; auto|exact Ha2].
    apply Forall_forall. intros o Ho. pose proof (HB o Ho) as Hb. assert (In o os) as Hin by (rewrite EAB; apply in_app_iff; right; now right). specialize (Hform o Hin). unfold after in Hb. unfold respects, QB.
    destruct o as [oi oo]. cbn [op_instr op_id] in *. destruct oo; auto.
    - destruct Hform as (u & v & H1 & H2 & H3). exists u, v. split; [exact H1|]. split; [exact H2|]. intros n l [[-> H]|[->|H]]; [right; right; lia|contradiction|right; right; lia].
    - destruct Hform as (u & ->). exists u. split; [reflexivity|]. intros n0 l [[-> H]|H]; [contradiction|auto].
    - intros n1 n2 l [[-> H]|H]; eauto.
    - destruct Hform as (u & ->). exists u. split; [reflexivity|]. intros n0 l [[-> H]|H]; [contradiction|auto]. }
  pose proof (every_in_path _ _ _ _ Mb Hz Kz) as Hq. assert (el_id z = k' /\ el_name z = el_name d /\ el_listeners z = el_listeners d) as (Z1 & Z2 & Z3) by (unfold k'; inversion Vz; auto). rewrite Z1, Z2, Z3 in Hq. destruct Hq as [[_ Hq]|[Hq|Hq]]; [exact Hq|congruence|lia].
Qed.
Lemma kept_listeners m : forall q c d, at_path q a = Some c -> at_path q b = Some d -> (N.to_nat (j - el_id c) < m)%nat -> el_id c <> el_id d -> el_listeners c = el_listeners d \/ el_listeners d = [].
Proof.
  induction m as [|m IH]; intros q c d Hc Hd Hm Hne; [lia|].
  assert (forall q' c', at_path q' a = Some c' -> el_id c' < j) as Hj by (intros q' c' Hq; apply at_root_id in Hq; apply numbered_range in Na as (_ & _ & R & _); now apply R in Hq).
  destruct (kept_node q c d (fun _ l => l = el_listeners c \/ l = []) Hc Hd Hne) as [H|H]; auto.
  intros q2 c2 d2 H2 H3 H4 H5. assert (at_path (q ++ q2) a = Some c2) as X by now rewrite at_path_app, Hc. pose proof (Hj _ _ X). apply (IH (q ++ q2)); auto; [now rewrite at_path_app, Hd|lia].
Qed.
Lemma kept_names m : forall q c d, at_path q a = Some c -> at_path q b = Some d -> (N.to_nat (j - el_id c) < m)%nat -> el_id c <> el_id d -> el_name c = el_name d.
Proof.
  induction m as [|m IH]; intros q c d Hc Hd Hm Hne; [lia|].
  assert (forall q' c', at_path q' a = Some c' -> el_id c' < j) as Hj by (intros q' c' Hq; apply at_root_id in Hq; apply numbered_range in Na as (_ & _ & R & _); now apply R in Hq).
  symmetry. apply (kept_node q c d (fun n _ => n = el_name c) Hc Hd Hne); auto.
  - intros q2 c2 d2 H2 H3 H4 H5. apply (kept_listeners (S (N.to_nat (j - el_id c2))) (q ++ q2)); auto; [now rewrite at_path_app, Hc|now rewrite at_path_app, Hd].
  - intros n0 Ho. exfalso. destruct (diff_origin b a os Ua Ub E _ Ho) as [q2 c2 d2 X1 X2 X3|X|q2 c2 d2 n e X1 X2 X3 X4 X5]; [|discriminate|].
    + apply in_app_or in X3 as [X3|X3]; [|apply id_says in X3 as [X3 _]; discriminate]. apply own_says in X3. cbn in X3. destruct X3 as [X3 X4]. apply dec_inj in X3.
      pose proof (level_pair _ _ _ _ _ _ HL X1 X2) as Hle. pose proof (Hj _ _ X1). destruct (N.eq_dec (el_id c2) (el_id d2)) as [Eq|Neq].
      * assert (q = q2) by (apply (same_path q a q2 c c2); auto; [now apply numbered_range in Na|congruence]). subst q2. rewrite Hc in X1. injection X1 as <-. congruence.
      * apply X4. apply (IH q2); auto. pose proof (Hj _ _ Hc). lia.
    + now apply made_says in X5 as (u & _ & _ & []).
Qed.
Lemma kept : matched keeps a b.
Proof.
  apply matched_paths. intros q c d Hc Hd. unfold keeps. destruct (N.eq_dec (el_id c) (el_id d)) as [|Hne]; [auto|right]. split; [eapply kept_names; eauto|eapply kept_listeners; eauto].
Qed.
End Kept.
