(** The exact form of C59: pairs of nodes, and the theorem. *)
From Verif Require Import Base HMap Num Json DomModel DomSpec ClientModel ClientSpec InnerHtml ExactSpec CarrySpec DomProofs DomProofs2 DomProofs3 DomProofs4 DomKeyed DomLocal ExactRun ClientProofs ClientProofs2 CarryProofs CarryRun.
From Coq Require Import Lia.
Local Open Scope N_scope.

Lemma in_nids_displays x a i : displays x a -> In (dec i) (nids x) -> In i (ids a).
Proof. intros V H. rewrite (displays_nids _ _ V) in H. now apply in_map_dec. Qed.

Section Browser.
Context (reparse : str -> str -> list node -> list node) (reparse_std : standard reparse).
Notation jruns := (jruns reparse).
Notation jfails := (jfails reparse).

Definition ends (W : list N) (a b : element) : Prop := exists os, diff_to b a = Some os /\ forall f x, displays x (mask f a) ->
  (jfails (reach W a b) (fun i => In i (ids a)) os [x] /\ ~ carry b a f) \/
  (exists y, jruns (reach W a b) os [x] [y] /\ is_elem y /\ incl (nids y) (map dec (ids b)) /\ (displays y b <-> carry b a f)).
Definition ends_when (d : element) : Prop := forall W c i j i' j', numbered i c j -> numbered i' d j' -> unkeyed c -> unkeyed d ->
  tidy c -> tidy d -> level W c d -> matched keeps c d -> matched renamed_empty c d -> ends W c d.

Lemma ends_zip r W ds : Forall ends_when ds -> forall cs i j i' j', numbered_list i cs j -> numbered_list i' ds j' ->
  Forall unkeyed cs -> Forall unkeyed ds -> Forall tidy cs -> Forall tidy ds ->
  level_list (r :: W) cs ds -> matched_list keeps cs ds -> matched_list renamed_empty cs ds -> r < i ->
  exists os, cat_ops (zip_ops ds cs) = Some os /\
    forall (S : N -> Prop) f tag m m0 l done xs, amap r m m0 -> (forall z, In (dec z) (flat_map nids done) -> z < i') ->
      Forall2 displays xs (map (mask f) (firstn (length ds) cs)) ->
      (forall x, In x (ids_of cs) -> S x) -> (forall x, In x (ids_of ds) -> ~ In x (r :: W) -> S x) ->
      (jfails S (fun i => In i (ids_of cs)) os [Elem tag m l (done ++ xs)] /\ ~ carry_list ds cs f) \/
      (exists ys, jruns S os [Elem tag m l (done ++ xs)] [Elem tag m l (done ++ ys)] /\ Forall is_elem ys /\
         incl (flat_map nids ys) (map dec (ids_of (firstn (length cs) ds))) /\ (Forall2 displays ys (firstn (length cs) ds) <-> carry_list ds cs f)).
Proof.
  induction 1 as [|d ds Hd _ IH]; intros cs i j i' j' Nc Nd Uc Ud Pc Pd HL HK HN Hr.
  - exists []. split; [reflexivity|]. intros S f tag m m0 l done xs _ _ Vx _ _. cbn in Vx. inversion Vx; subst. right. exists []. split; [constructor|]. split; [constructor|]. rewrite firstn_nil. split; [intros z []|]. cbn. split; [auto|constructor].
  - destruct cs as [|c cs].
    { exists []. split; [reflexivity|]. intros S f tag m m0 l done xs _ _ Vx _ _. cbn in Vx. inversion Vx; subst. right. exists []. split; [constructor|]. split; [constructor|]. split; [intros z []|]. cbn. split; [auto|constructor]. }
    inversion Nc as [|? ? ? j1 ? C1 C2]; subst. inversion Nd as [|? ? ? j1' ? D1 D2]; subst. inversion Uc as [|? ? U1 U2]; subst. inversion Ud as [|? ? V1 V2]; subst.
    inversion Pc as [|? ? P1 P2]; subst. inversion Pd as [|? ? Q1 Q2]; subst. inversion HL as [| |? ? ? ? ? L1 L2]; subst. inversion HK as [| |? ? ? ? K1 K2]; subst. inversion HN as [| |? ? ? ? M1 M2]; subst.
    pose proof (numbered_range _ _ _ C1) as (R1 & R2 & R3 & _). pose proof (numbered_range _ _ _ D1) as (T1 & T2 & T3 & _). pose proof (numbered_list_range _ _ _ C2) as (_ & R4 & _).
    destruct (Hd (r :: W) c i j1 i' j1' C1 D1 U1 V1 P1 Q1 L1 K1 M1) as (os1 & Ho1 & Hx1).
    destruct (IH cs j1 j j1' j' C2 D2 U2 V2 P2 Q2 L2 K2 M2) as (os2 & Ho2 & Hx2); [lia|].
    exists (os1 ++ os2). split. { cbn [zip_ops cat_ops]. now rewrite Ho1, Ho2. }
    intros S f tag m m0 l done xs Hm Hdone Vx Sc Sd. cbn [length firstn map] in Vx |- *. inversion Vx as [|x ? xs' ? W1 W2]; subst. cbn [carry_list].
    assert (el_id d <= el_id c) as Hle by (now inversion L1).
    assert (forall z, reach (r :: W) c d z -> get attr_id m <> Some (dec z) /\ ~ In (dec z) (flat_map nids done)) as Hav.
    { destruct Hm as [Hm _]. intros z Hz. rewrite Hm. destruct Hz as [Hz|[Hz Hw]].
      - apply R3 in Hz. split; [intros [= E]; apply dec_inj in E; lia|]. intros H. apply Hdone in H. lia.
      - split; [intros [= E]; apply dec_inj in E; apply Hw; now left|]. intros H. apply Hdone in H. apply T3 in Hz. lia. }
    assert (forall z, reach (r :: W) c d z -> S z) as HS. { intros z [Hz|[Hz Hw]]; [apply Sc|apply Sd]; try exact Hw; rewrite ids_of_cons; apply in_or_app; now left. }
    destruct (Hx1 f x W1) as [[F1 F2]|(y & Ry & Ey & Iy & Vy)].
    + left. split; [|tauto]. apply jfails_app. change (x :: xs') with ([x] ++ xs'). eapply jfails_lift; [exact F1|exact Hav| |exact HS|].
      * intros z Hz. destruct (Hav z (or_introl Hz)) as [A B]. split; [exact A|]. split; [exact B|]. rewrite (displays_nids_list _ _ W2), mask_ids_of, in_map_dec. intros Hy. apply in_ids_firstn in Hy. apply R4 in Hy. apply R3 in Hz. lia.
      * cbn beta. intros z Hz. rewrite ids_of_cons. apply in_or_app. now left.
    + assert (jruns S os1 [Elem tag m l (done ++ x :: xs')] [Elem tag m l ((done ++ [y]) ++ xs')]) as R.
      { rewrite <- app_assoc. change (x :: xs') with ([x] ++ xs'). now apply (jruns_lift reparse (reach (r :: W) c d)). }
      destruct (Hx2 S f tag m m0 l (done ++ [y]) xs' Hm) as [[F1 F2]|(ys & Rys & Eys & Iys & Vys)]; auto.
      { intros z. rewrite flat_map_app, in_app_iff. cbn [flat_map]. rewrite app_nil_r. intros [H|H]; [apply Hdone in H; lia|]. apply Iy in H. apply in_map_dec in H. apply T3 in H. lia. }
      { intros z Hz. apply Sc. rewrite ids_of_cons. apply in_or_app. now right. }
      { intros z Hz. apply Sd. rewrite ids_of_cons. apply in_or_app. now right. }
      * left. split; [|tauto]. eapply jfails_after; [exact R|]. destruct F1 as (q1 & o & q2 & G & z & E & F1 & F3 & F4 & F5). exists q1, o, q2, G, z. split; [exact E|]. split; [exact F1|]. split; [exact F3|]. split; [|exact F5]. rewrite ids_of_cons. apply in_or_app. now right.
      * right. exists (y :: ys). split; [eapply jruns_app; [exact R|]; rewrite <- !app_assoc in Rys; rewrite <- app_assoc; exact Rys|]. split; [now constructor|]. split.
        { cbn [flat_map]. rewrite ids_of_cons, map_app. apply incl_app; [apply incl_appl|apply incl_appr]; assumption. }
        split; [intros H; inversion H; subst; tauto|]. intros [H1 H2]. constructor; tauto.
Qed.

Lemma jfails_wider (S S' Z Z' : N -> Prop) os F : jfails S Z os F -> (forall i, S i -> S' i) -> (forall i, Z i -> Z' i) -> jfails S' Z' os F.
Proof. intros (q1 & o & q2 & G & z & E & F1 & F3 & F4 & F5) HS HZ. exists q1, o, q2, G, z. split; [exact E|]. split; [eapply jruns_mono; eauto|auto]. Qed.

Theorem ends_out b : ends_when b.
Proof.
  induction b as [bi bn ba bl bc bt bk IH] using element_ind2. set (b := Element bi bn ba bl bc bt bk) in *.
  intros W a i j i' j' Na Nb Ua Ub Ta Tb HL HK HN.
  pose proof (tidy_kids _ Ta) as Ca. pose proof (tidy_kids _ Tb) as Cb. pose proof (every_children _ _ Ua) as Ka. pose proof (every_children _ _ Ub) as Kb.
  change (el_children b) with bc in *.
  destruct a as [ai an aa al ac at_ ak]. set (a := Element ai an aa al ac at_ ak) in *. change (el_children a) with ac in *.
  inversion HL as [? ? ? Hle HLl]; subst. inversion HK as [? ? HKr HKl]; subst. inversion HN as [? ? HNr HNl]; subst.
  change (el_children b) with bc in *. change (el_children a) with ac in *. change (el_id b) with bi in Hle. change (el_id a) with ai in *.
  inversion Na as [? ? ? ? ? ? ? ? Nac]; subst. inversion Nb as [? ? ? ? ? ? ? ? Nbc]; subst.
  destruct (ends_zip ai W bc IH ac (ai + 1) j (bi + 1) j' Nac Nbc Ka Kb Ca Cb HLl HKl HNl) as (zos & Ez & Hz); [lia|].
  set (dels := map (fun c => Op (id_str c) DeleteEl) (skipn (length bc) ac)).
  set (news := flat_map (fun d => create_from_scratch d (Some (dec ai))) (skipn (length ac) bc)).
  assert ((if all_keyed a && all_keyed b then keyed_kids (el_children a) (el_children b) else plain_kids (el_id a) (el_children a) (el_children b)) = Some (dels ++ zos ++ news)) as Hk.
  { unfold dels, news. destruct (all_keyed a && all_keyed b) eqn:E.
    - apply andb_true_iff in E as [E1 E2]. apply unkeyed_kids in E1, E2; auto. change (el_children a) with ac in *. change (el_children b) with bc in *. rewrite E1, E2 in *. cbn in Ez. injection Ez as <-. reflexivity.
    - unfold plain_kids. change (el_children a) with ac. change (el_children b) with bc. change (el_id a) with ai. cbn [cat_ops]. rewrite Ez. now rewrite app_nil_r. }
  exists (diff_own a b ++ (dels ++ zos) ++ news ++ diff_id a b). split. { rewrite diff_to_eq, Hk. cbn [cat_ops]. now rewrite app_nil_r, !app_assoc. }
  intros f x Vx. apply displays_mask in Vx as (m & xs & Hm & Hxs & ->).
  set (S := reach W a b). assert (S ai) as Sr by (left; now left).
  assert (forall z, In z (ids_of ac) -> S z) as Sac by (intros z Hz'; left; right; exact Hz').
  assert (forall z, In z (ids_of bc) -> ~ In z (ai :: W) -> S z) as Sbc by (intros z Hz' Hw; right; split; [right; exact Hz'|intros H; apply Hw; now right]).
  destruct (own_ends reparse reparse_std S a b f m xs Ta Tb HKr HNr Sr Hm Hxs) as (m' & L & s & K & Hm' & R0 & HLs & HKs).
  change (el_id a) with ai in *. change (el_attrs b) with ba in *. change (el_name b) with bn in *. change (el_listeners b) with bl in *. change (el_children a) with ac in *.
  pose proof (numbered_list_range _ _ _ Nac) as (_ & Rac & _). pose proof (numbered_list_range _ _ _ Nbc) as (_ & Rbc & _).
  (* creations, after the kids [ys] that are left *)
  assert (forall ys, incl (flat_map nids ys) (map dec (ids_of (firstn (length ac) bc))) ->
    exists zs, Forall2 displays zs (skipn (length ac) bc) /\ jruns S news [Elem bn m' L (text_nodes s ++ ys)] [Elem bn m' L (text_nodes s ++ ys ++ zs)]) as Hnew.
  { intros ys Hys. destruct (jmakes_list reparse (skipn (length ac) bc)) with (S := S) (Q := fun z => In z (ids_of bc) /\ ~ In z (ai :: W)) (r := ai) (tag := bn) (m := m') (m0 := ba) (l := L) (K := text_nodes s ++ ys) as (zs & Vz & R3); auto.
    - apply Forall_forall. intros d _. apply jmake_runs.
    - rewrite <- (firstn_skipn (length ac) bc) in Nbc. apply numbered_list_app in Nbc as (q & _ & N2). now apply numbered_list_range in N2.
    - now apply forall_skipn.
    - intros z Hz'. rewrite flat_map_app, text_nids. cbn [app]. intros Hy. apply Hys in Hy. apply in_map_dec in Hy. rewrite <- (firstn_skipn (length ac) bc) in Nbc. apply numbered_list_app in Nbc as (q & N1 & N2).
      apply numbered_list_range in N1 as (_ & N1 & _). apply numbered_list_range in N2 as (_ & N2 & _). apply N1 in Hy. apply N2 in Hz'. lia.
    - apply level_added in HLl. rewrite Forall_forall in HLl |- *. intros d Hd. specialize (HLl d Hd). apply every_ids in HLl. eapply every_impl; [|exact HLl]. cbn beta. intros z [Hz1 Hz2].
      destruct (in_dec N.eq_dec (el_id z) (ai :: W)) as [H|H]; [left; auto|right]. split; [|exact H]. unfold ids_of. apply in_flat_map. exists d. split; [|exact Hz2].
      destruct (nth_skip _ _ _ Hd) as (q & _ & Hq). now apply nth_error_In in Hq.
    - intros z [_ Hz'] ->. apply Hz'. now left.
    - intros z [H1 H2]. now apply Sbc.
    - exists zs. split; [exact Vz|]. rewrite <- app_assoc in R3. exact R3. }
  (* the id *)
  assert (forall ks, exists m2, amap bi m2 ba /\ jruns S (diff_id a b) [Elem bn m' L ks] [Elem bn m2 L ks]) as Hfin.
  { intros ks. unfold diff_id. change (el_id b) with bi. change (el_id a) with ai. destruct (N.eqb_spec ai bi) as [E|E].
    - exists m'. rewrite <- E. split; [exact Hm'|constructor].
    - exists (insert attr_id (dec bi) m'). split.
      + destruct Hm' as [M1 M2]. split; [rewrite get_insert, str_eqb_refl; reflexivity|]. intros q Hq. rewrite get_insert.
        destruct (str_eqb q attr_id) eqn:Eq; [apply str_eqb_eq in Eq; congruence|now apply M2].
      + eapply jr_own; [intros doc; apply exec_id|exact Sr|eapply amap_id; exact Hm'|reflexivity|constructor]. }
  assert (forall ys m2, incl (flat_map nids ys) (map dec (ids_of bc)) -> amap bi m2 ba -> incl (nids (Elem bn m2 L (text_nodes s ++ ys))) (map dec (ids b))) as Hincl.
  { intros ys m2 Hy [M _]. cbn [nids]. rewrite M, flat_map_app, text_nids. cbn [app ids b map]. intros z [<-|Hz']; [now left|right]. now apply Hy. }
  assert (forall z, In z (ids_of (firstn (length ac) bc)) -> In z (ids_of bc)) as Hfst by (intros z; apply in_ids_firstn).
  rewrite carry_eq. change (el_children b) with bc. change (el_children a) with ac.
  destruct HKs as [(-> & Hne & Hbad)|[HKs HT]].
  { (* the children were wiped *)
    assert (first_in reparse (fun i => In i (ids_of ac)) (dels ++ zos)) as Hf.
    { apply first_app.
      - apply first_all. intros o Ho'. apply in_map_iff in Ho' as (c & <- & Hc). exists (el_id c). split; [eexists; intros doc; apply exec_delete|].
        apply (in_ids_skipn _ (length bc)). apply in_flat_map. exists c. split; [exact Hc|apply in_ids_root].
      - clear -Ez HKl Ca Cb Ka Kb. revert ac zos Ez HKl Ca Ka. induction bc as [|d ds IHds]; intros cs zos Ez HK Ca Ka.
        + cbn in Ez. injection Ez as <-. apply first_nil.
        + destruct cs as [|c cs]; [cbn in Ez; injection Ez as <-; apply first_nil|]. cbn [zip_ops cat_ops] in Ez. destruct (diff_to d c) as [o1|] eqn:E1; [|discriminate].
          destruct (cat_ops (zip_ops ds cs)) as [o2|] eqn:E2; [|discriminate]. injection Ez as <-. inversion HK; subst. inversion Ca; subst. inversion Cb; subst. inversion Ka; subst. inversion Kb; subst.
          apply first_app.
          * eapply first_mono; [|eapply first_pair; eauto]. intros i Hi. rewrite ids_of_cons. apply in_or_app. now left.
          * eapply first_mono; [|eapply IHds; eauto]. intros i Hi. rewrite ids_of_cons. apply in_or_app. now right. }
    apply (first_fails reparse S) with (F := [Elem bn m' L (text_nodes s ++ [])]) in Hf as [Hf|Hf].
    - right. destruct (Hnew []) as (zs & Vz & R3); [intros z []|]. destruct (Hfin (text_nodes s ++ [] ++ zs)) as (m2 & Hm2 & R4).
      exists (Elem bn m2 L (text_nodes s ++ [] ++ zs)). split.
      { eapply jruns_app; [exact R0|]. eapply jruns_app; [now apply skips_run|]. eapply jruns_app; [exact R3|exact R4]. }
      split; [exact I|]. split.
      { apply Hincl; [|exact Hm2]. cbn [app]. rewrite (displays_nids_list _ _ Vz). intros z Hz'. apply in_map_iff in Hz' as (q & <- & Hq). apply in_map. now apply in_ids_skipn in Hq. }
      split; [|intros (_ & Hx & _); contradiction]. intros V. exfalso. unfold b in V. apply displays_iff in V as (_ & _ & V); [|exact Hm2|cbn [app]; eapply displays_elems; eauto].
      cbn [app] in V. apply forall2_len in V. apply forall2_len in Vz. rewrite skipn_length in Vz.
      assert (length dels = 0%nat) as Hd0.
      { apply Forall_app in Hf as [Hf _]. unfold dels in *. destruct (skipn (length bc) ac); [reflexivity|]. cbn [map] in Hf. inversion Hf as [|? ? H _]; subst. discriminate H. }
      unfold dels in Hd0. rewrite map_length, skipn_length in Hd0. destruct ac; [contradiction|]. cbn [length] in *. lia.
    - left. split; [|intros (_ & Hx & _); contradiction]. eapply jfails_after; [exact R0|]. apply jfails_app. eapply jfails_wider; [exact Hf|auto|]. intros z Hz'. right. exact Hz'.
    - intros z Hz'. cbn [flat_map nids]. destruct Hm' as [M _]. rewrite M, app_nil_r, app_nil_r, text_nids. cbn [app]. intros [E|[]]. apply dec_inj in E. apply Rac in Hz'. lia. }
  (* deletions *)
  set (g := lost f a b) in *.
  assert (jruns S dels [Elem bn m' L (text_nodes s ++ K)] [Elem bn m' L (text_nodes s ++ firstn (length bc) K)]) as R1.
  { rewrite <- (firstn_skipn (length bc) K) at 1. rewrite app_assoc. unfold dels.
    assert (map (fun c => Op (id_str c) DeleteEl) (skipn (length bc) ac) = map (fun c => Op (id_str c) DeleteEl) (map (mask g) (skipn (length bc) ac))) as ->.
    { rewrite map_map. apply map_ext. intros c. unfold id_str. now rewrite mask_id. }
    apply jdeletes_runs with (r := ai) (m0 := ba); auto.
    - rewrite <- skipn_map. now apply forall2_skipn.
    - apply Forall_forall. intros c Hc. apply in_map_iff in Hc as (c' & <- & Hc). rewrite mask_id.
      rewrite <- (firstn_skipn (length bc) ac) in Nac. apply numbered_list_app in Nac as (q & N1 & N2). apply numbered_list_range in N1 as (Q1 & Q2 & _). apply numbered_list_range in N2 as (_ & Q3 & _).
      assert (In (el_id c') (ids_of (skipn (length bc) ac))) as Hx by (apply in_flat_map; exists c'; split; [exact Hc|apply in_ids_root]). apply Q3 in Hx.
      split; [lia|]. rewrite flat_map_app, text_nids. cbn [app]. apply (forall2_firstn _ (length bc)) in HKs. rewrite (displays_nids_list _ _ HKs), firstn_map, mask_ids_of, in_map_dec. intros Hy. apply Q2 in Hy. lia.
    - intros z Hz'. rewrite mask_ids_of in Hz'. apply Sac. now apply in_ids_skipn in Hz'. }
  destruct (Hz S g bn m' ba L (text_nodes s) (firstn (length bc) K)) as [[F1 F2]|(ys & R2 & Ey & Iy & Vy)]; auto.
  { intros z. rewrite text_nids. intros []. }
  { rewrite <- firstn_map. now apply forall2_firstn. }
  - left. split; [|intros (_ & _ & Hx); contradiction]. eapply jfails_after; [exact R0|]. apply jfails_app. eapply jfails_after; [exact R1|]. eapply jfails_wider; [exact F1|auto|]. intros z Hz'. right. exact Hz'.
  - right. destruct (Hnew ys Iy) as (zs & Vz & R3). destruct (Hfin (text_nodes s ++ ys ++ zs)) as (m2 & Hm2 & R4).
    exists (Elem bn m2 L (text_nodes s ++ ys ++ zs)). split.
    { eapply jruns_app; [exact R0|]. eapply jruns_app; [eapply jruns_app; [exact R1|exact R2]|]. eapply jruns_app; [exact R3|exact R4]. }
    split; [exact I|]. split.
    { apply Hincl; [|exact Hm2]. rewrite flat_map_app, (displays_nids_list _ _ Vz). apply incl_app; intros z Hz'; [apply Iy in Hz'|]; apply in_map_iff in Hz' as (q & <- & Hq); apply in_map; [now apply Hfst|now apply in_ids_skipn in Hq]. }
    unfold b at 1. rewrite displays_iff; [|exact Hm2|apply Forall_app; split; [exact Ey|eapply displays_elems; eauto]].
    change (el_text b) with bt in HT. rewrite carry_eq. change (el_children b) with bc. change (el_children a) with ac. fold g. rewrite HLs, HT, <- Vy. change (el_name b) with bn.
    assert (Forall2 displays (ys ++ zs) bc <-> Forall2 displays ys (firstn (length ac) bc)) as ->; [|reflexivity].
    rewrite <- (firstn_skipn (length ac) bc) at 1. split; [|intros H; now apply Forall2_app].
    intros H. apply Forall2_app_inv_r in H as (y1 & y2 & H1 & H2 & E). assert (length zs = length y2) as El by (apply forall2_len in Vz, H2; congruence).
    assert (ys = y1) as ->; [|exact H1]. apply (f_equal (@length _)) in E as E'. rewrite !app_length in E'. assert (length ys = length y1) as El2 by lia.
    apply (f_equal (firstn (length ys))) in E. rewrite firstn_app, Nat.sub_diag, firstn_all, app_nil_r in E. rewrite El2, firstn_app, Nat.sub_diag, firstn_all, app_nil_r in E. exact E.
Qed.
End Browser.
