(** Applying changesets does not look at the order of attributes: it respects [view]. *)
From Verif Require Import Base HMap Num DomModel DomSpec ExactSpec DomProofs DomProofs2 DomProofs3 DomProofs4 DomKeyed DomLocal GrowProofs ExactRun ExactSkel ExactMark.
From Coq Require Import Lia.

Lemma mutate_view i f : (forall u v u', view u v -> f u = Some u' -> exists v', f v = Some v' /\ view u' v') ->
  forall x y x', view x y -> mutate i f x = Some x' -> exists y', mutate i f y = Some y' /\ view x' y'.
Proof.
  intros Hf. induction x as [r n a l cs t k IH] using element_ind2. intros y x' Hr Hm. apply mutate_cases in Hm as [[E Hm]|(Hne & L1 & c & c' & L2 & E & -> & Hn & Hm)].
  - destruct (Hf _ _ _ Hr Hm) as (v' & H1 & H2). exists v'. split; [|exact H2]. rewrite mutate_root; auto. rewrite <- E. symmetry. now apply view_root_id.
  - inversion Hr as [? ? ? a2 ? ? cs2 ? ? k2 Ha Hc]; subst. cbn [el_children el_id] in *. subst cs. apply Forall2_app_inv_l in Hc as (M1 & M2 & H1 & H2 & ->). inversion H2 as [|? d ? M3 Hd H3]; subst.
    rewrite Forall_forall in IH. destruct (IH c ltac:(apply in_app_iff; right; now left) d c' Hd Hm) as (d' & Em & Hd').
    exists (Element r n a2 l (M1 ++ d' :: M3) t k2). split.
    + apply mutate_lift; auto. now rewrite <- (views_ids _ _ H1).
    + constructor; [exact Ha|]. apply Forall2_app; [exact H1|]. now constructor.
Qed.
Lemma position_view j xs es : Forall2 view xs es -> position (fun c => N.eqb (el_id c) j) xs = position (fun c => N.eqb (el_id c) j) es.
Proof. induction 1 as [|x e xs es H _ IH]; [reflexivity|]. cbn [position]. now rewrite (view_root_id _ _ H), IH. Qed.
Lemma parent_view x : forall y i, view x y -> find_parent_id x i = find_parent_id y i.
Proof.
  induction x as [r n a l cs t k IH] using element_ind2. intros y i H. inversion H as [? ? ? ? ? ? cs2 ? ? k2 Ha Hc]; subst. rewrite !find_parent_eq. clear H Ha.
  revert cs2 Hc. induction IH as [|c cs H _ IHc]; intros cs2 Hc; inversion Hc; subst; [reflexivity|]. cbn [parent_list]. rewrite (view_root_id _ _ H2), (H _ i H2), (IHc _ H4). reflexivity.
Qed.
Lemma insert_at_view n z xs ys : Forall2 view xs ys -> Forall2 view (insert_at n z xs) (insert_at n z ys).
Proof. intros H. unfold insert_at. apply Forall2_app; [now apply forall2_firstn|]. constructor; [apply view_refl|now apply forall2_skip]. Qed.
Lemma apply_op_view max o x y x' : view x y -> apply_op max o x = Some x' -> exists y', apply_op max o y = Some y' /\ view x' y'.
Proof.
  intros Hr. unfold apply_op. destruct (parse_uint max (op_id o)) as [i|]; [|discriminate].
  destruct (op_instr o) eqn:Eo; try discriminate;
    try (apply mutate_view; [|exact Hr]; intros u v u' [? ? a1 a2 ? cs1 cs2 ? ? ? Ha Hc] [= <-]; eexists; split; [reflexivity|]; cbn; constructor; auto; fail).
  - destruct (parse_uint max new_child_id) as [j|]; [|discriminate]. apply mutate_view; [|exact Hr].
    intros u w u' [? ? a1 a2 ? cs1 cs2 ? ? ? Ha Hc] [= <-]; eexists; split; [reflexivity|]; cbn. constructor; [exact Ha|]. apply Forall2_app; [exact Hc|]. constructor; [apply view_refl|constructor].
  - apply mutate_view; [|exact Hr]. intros u w u' [? ? a1 a2 ? cs1 cs2 ? ? ? Ha Hc]. cbn [el_children]. destruct Hc as [|c1 c2 cs1 cs2 H1 H2]; [discriminate|].
    destruct (parse_uint max after_id) as [j|]; [|discriminate]. rewrite (position_view j (c1 :: cs1) (c2 :: cs2)) by now constructor. destruct (position _ _) as [p|]; [|discriminate]. intros [= <-].
    eexists. split; [reflexivity|]. cbn [with_children]. constructor; [exact Ha|]. apply insert_at_view. now constructor.
  - apply mutate_view; [|exact Hr]. intros u w u' [? ? a1 a2 ? cs1 cs2 ? ? ? Ha Hc]. cbn [el_children]. destruct Hc as [|c1 c2 cs1 cs2 H1 H2]; [discriminate|].
    destruct (parse_uint max before_id) as [j|]; [|discriminate]. rewrite (position_view j (c1 :: cs1) (c2 :: cs2)) by now constructor. destruct (position _ _) as [p|]; [|discriminate]. intros [= <-].
    eexists. split; [reflexivity|]. cbn [with_children]. constructor; [exact Ha|]. apply insert_at_view. now constructor.
  - apply mutate_view; [|exact Hr]. intros u v u' [? ? a1 a2 ? cs1 cs2 ? ? ? Ha Hc] [= <-]. eexists; split; [reflexivity|]. cbn. constructor; auto. intros q. rewrite !get_insert. now destruct (str_eqb q _).
  - apply mutate_view; [|exact Hr]. intros u v u' [? ? a1 a2 ? cs1 cs2 ? ? ? Ha Hc] [= <-]. eexists; split; [reflexivity|]. cbn. constructor; auto. intros q. rewrite !get_remove. now destruct (str_eqb q _).
  - destruct (parse_uint max value) as [v|]; [|discriminate]. apply mutate_view; [|exact Hr]. intros u w u' [] [= <-]; eexists; split; [reflexivity|]; cbn; now constructor.
  - destruct parent_id as [p|]; [|discriminate]. destruct (parse_uint max p) as [j|]; [|discriminate]. apply mutate_view; [|exact Hr].
    intros u w u' [? ? a1 a2 ? cs1 cs2 ? ? ? Ha Hc] [= <-]; eexists; split; [reflexivity|]; cbn. constructor; [exact Ha|]. apply Forall2_app; [exact Hc|]. constructor; [apply view_refl|constructor].
  - rewrite (parent_view _ _ i Hr). destruct (find_parent_id y i) as [p|]; [|discriminate]. apply mutate_view; [|exact Hr].
    intros u w u' [? ? a1 a2 ? cs1 cs2 ? ? ? Ha Hc]. cbn [el_children]. rewrite (position_view i _ _ Hc). destruct (position _ _) as [q|]; [|discriminate]. intros [= <-]. eexists. split; [reflexivity|]. cbn.
    constructor; [exact Ha|]. unfold remove_at. apply Forall2_app; [now apply forall2_firstn|now apply forall2_skip].
Qed.
Lemma apply_view max os : forall x y x', view x y -> apply max os x = Some x' -> exists y', apply max os y = Some y' /\ view x' y'.
Proof.
  induction os as [|o os IH]; intros x y x' Hr; cbn [apply]; [intros [= <-]; eauto|]. destruct (apply_op max o x) as [x1|] eqn:E; [|discriminate]. intros H.
  destruct (apply_op_view max o x y x1 Hr E) as (y1 & -> & Hr1). eapply IH; eauto.
Qed.
