(** The exact form of C51, first half: what is [level] and [keeps] comes out right. *)
From Verif Require Import Base HMap Num DomModel DomSpec ExactSpec DomProofs DomProofs2 DomProofs3 DomProofs4 DomKeyed DomLocal.
From Coq Require Import Lia.
Local Open Scope N_scope.

Lemma own_keeps a b : hm_wf (el_attrs a) -> hm_wf (el_attrs b) -> keeps a b ->
  exists l, diff_own a b = map (Op (id_str a)) l /\
    forall i m cs k, hm_equiv m (el_attrs a) ->
      exists m', owns l (Element i (el_name a) m (el_listeners a) cs (el_text a) k)
                 = Some (Element i (el_name b) m' (el_listeners b) cs (el_text b) k) /\ hm_equiv m' (el_attrs b).
Proof.
  intros Wa Wb [Hid|[Hn [Hl|Hl]]]; [apply diff_own_spec; auto|apply diff_own_spec; auto|].
  destruct (listeners_eqb (el_listeners a) (el_listeners b)) eqn:E; [apply listeners_eqb_eq in E; apply diff_own_spec; auto|].
  destruct a as [ai an aa al ac at_ ak]. cbn [el_name el_listeners el_attrs el_text el_id] in *.
  destruct (diff_own_spec (Element ai an aa [] ac at_ ak) b Wa Wb) as (l & El & Hx); [right; auto|]. cbn [el_name el_listeners el_attrs el_text el_id] in *.
  assert (diff_own (Element ai an aa al ac at_ ak) b = diff_own (Element ai an aa [] ac at_ ak) b ++ [Op (dec ai) RemoveListeners]) as Eo.
  { unfold diff_own. rewrite <- !app_assoc. f_equal. f_equal. f_equal. unfold diff_listeners, generate_listeners. cbn [el_listeners]. rewrite E, Hl. reflexivity. }
  exists (l ++ [RemoveListeners]). split; [rewrite Eo, El, map_app; reflexivity|]. intros i m cs k Hm.
  assert (forall f : list listener -> list listener, Forall (fun o => match o with RemoveListeners | AttachListener _ _ => False | _ => True end) l ->
    forall n m ls cs t k e, owns l (Element i n m ls cs t k) = Some e -> owns l (Element i n m (f ls) cs t k) = Some (with_listeners (f ls) e) /\ el_listeners e = ls) as G.
  { intros f. clear. induction 1 as [|o l Ho _ IH]; intros n m ls cs t k e; cbn [owns]; [intros [= <-]; auto|]. destruct o; cbn [own with_attrs el_attrs with_text with_name]; try discriminate; try contradiction; apply IH. }
  assert (Forall (fun o => match o with RemoveListeners | AttachListener _ _ => False | _ => True end) l) as Hf.
  { assert (forall o, In o (diff_own (Element ai an aa [] ac at_ ak) b) -> match op_instr o with RemoveListeners | AttachListener _ _ => False | _ => True end) as H.
    { intros o. unfold diff_own. rewrite !in_app_iff. intros [H|[H|[H|H]]].
      - unfold diff_name in H. destruct (str_eqb _ _); [destruct H|destruct H as [<-|[]]; exact I].
      - unfold diff_attributes in H. destruct (hm_eqb _ _); [destruct H|]. apply in_app_or in H as [H|H]; apply in_flat_map in H as (kv & _ & H).
        + destruct (contains_key _ _); [destruct H|destruct H as [<-|[]]; exact I].
        + destruct (get _ _); [destruct (str_eqb _ _); [destruct H|]|]; (destruct H as [<-|[]]; exact I).
      - unfold diff_text in H. destruct (text_eqb _ _); [destruct H|]. destruct (el_text b); (destruct H as [<-|[]]; exact I).
      - unfold diff_listeners in H. cbn [el_listeners] in H. rewrite Hl in H. destruct H. }
    rewrite El in H. apply Forall_forall. intros o Ho. apply (H (Op (id_str (Element ai an aa [] ac at_ ak)) o)). now apply in_map. }
  destruct (Hx i m cs k Hm) as (m' & Ho & Hm'). exists m'. split; [|exact Hm'].
  destruct (G (fun _ => al) Hf _ _ _ _ _ _ _ Ho) as [G1 _]. rewrite owns_app, G1. cbn. now rewrite Hl.
Qed.

Lemma every_impl (P Q : element -> Prop) e : (forall x, P x -> Q x) -> every P e -> every Q e.
Proof.
  intros H. induction e as [i n a l cs t k IH] using element_ind2. intros He. inversion He as [? H1 H2]; subst. constructor; [auto|]. cbn [el_children] in *.
  clear -IH H2. induction IH; inversion H2; subst; constructor; auto.
Qed.
Lemma every_ids (P : element -> Prop) e : every P e -> every (fun x => P x /\ In (el_id x) (ids e)) e.
Proof.
  induction e as [i n a l cs t k IH] using element_ind2. intros He. inversion He as [? H1 H2]; subst. constructor; [split; [exact H1|now left]|]. cbn [el_children] in *.
  rewrite Forall_forall in IH, H2 |- *. intros c Hc. eapply every_impl; [|apply IH; auto]. cbn beta. intros x [Hx Hi]. split; [exact Hx|]. cbn [ids]. right. apply in_flat_map. eauto.
Qed.

Section Max.
Context (max : N).
Notation runs := (runs max).

(** *** Creation: only the nodes that are not bare are searched for *)
Definition makes (d : element) : Prop := proper max d -> NoDup (ids d) ->
  forall (S Q : N -> Prop) r n a l L t k, r <= max -> (forall i, In i (ids d) -> ~ In i (ids_of L)) ->
    every (fun x => bare x \/ Q (el_id x)) d -> (forall i, Q i -> i <> r) -> S r -> (forall i, Q i -> S i) ->
    exists d', view d' d /\ runs S (create_from_scratch d (Some (dec r))) (Element r n a l L t k) (Element r n a l (L ++ [d']) t k).
Lemma makes_list ds : Forall makes ds -> Forall (proper max) ds -> NoDup (ids_of ds) ->
  forall (S Q : N -> Prop) r n a l L t k, r <= max -> (forall i, In i (ids_of ds) -> ~ In i (ids_of L)) ->
    Forall (every (fun x => bare x \/ Q (el_id x))) ds -> (forall i, Q i -> i <> r) -> S r -> (forall i, Q i -> S i) ->
    exists ds', Forall2 view ds' ds /\
      runs S (flat_map (fun c => create_from_scratch c (Some (dec r))) ds) (Element r n a l L t k) (Element r n a l (L ++ ds') t k).
Proof.
  induction 1 as [|d ds Hd _ IH]; intros Hp Hnd S Q r n a l L t k Hr Hav He Hq Sr SQ.
  - exists []. split; [constructor|]. cbn [flat_map]. rewrite app_nil_r. constructor.
  - inversion Hp as [|? ? P1 P2]; subst. inversion He as [|? ? E1 E2]; subst. rewrite ids_of_cons in *. apply nodup_app_iff in Hnd as (N1 & N2 & N3).
    destruct (Hd P1 N1 S Q r n a l L t k Hr) as (d' & V & R); auto. { intros i Hi. apply Hav. apply in_or_app. now left. }
    destruct (IH P2 N2 S Q r n a l (L ++ [d']) t k Hr) as (ds' & Vs & Rs); auto.
    { intros i Hi. rewrite ids_of_app, ids_of_one, in_app_iff, (view_ids _ _ V). intros [H|H]; [apply (Hav i); [apply in_or_app; now right|exact H]|exact (N3 i H Hi)]. }
    exists (d' :: ds'). split; [now constructor|]. cbn [flat_map]. eapply runs_app; [exact R|]. rewrite <- app_assoc in Rs. exact Rs.
Qed.
Lemma make_runs d : makes d.
Proof.
  induction d as [i nm at_ ls cs tx ky IH] using element_ind2. intros Hp Hnd S Q r n a l L t k Hr Hav He Hq Sr SQ.
  rewrite create_eq. pose proof (every_root _ _ Hp) as [Hi Hwf]. pose proof (every_children _ _ Hp) as Hpc. cbn [el_id el_attrs el_children] in *.
  pose proof (every_root _ _ He) as Hroot. cbn [el_id] in Hroot. cbn [ids] in Hnd. inversion Hnd as [|? ? Hni Hndc]; subst.
  assert (forall os e', runs S os (Element r n a l (L ++ [blank i nm]) t k) e' -> runs S (Op (dec i) (CreateTag nm (Some (dec r))) :: os) (Element r n a l L t k) e') as Hfirst.
  { intros os e' R. apply (runs_cons max S _ _ _ (Element r n a l (L ++ [blank i nm]) t k)); [| |discriminate|exact R].
    - intros j Hj. unfold looks in Hj. cbn [op_instr] in Hj. rewrite parse_dec in Hj by exact Hr. congruence.
    - unfold apply_op. cbn [op_id op_instr]. rewrite !parse_dec by assumption. rewrite mutate_root by reflexivity. reflexivity. }
  destruct Hroot as [(B1 & B2 & B3 & B4)|Hroot].
  - cbn in B1, B2, B3, B4. subst. cbn [map app flat_map]. exists (blank i nm). split; [constructor; [apply hm_equiv_refl|constructor]|]. apply Hfirst. constructor.
  - set (Sd' := fun j => j = i \/ (Q j /\ In j (flat_map ids cs))).
    assert (exists e, owns (map (fun kv => SetAttribute (fst kv) (snd kv)) at_ ++ map (fun x => AttachListener (l_name x) (l_event x)) ls
                      ++ match tx with Some v => [SetText v] | None => [] end) (blank i nm) = Some e /\ e = Element i nm (extend [] at_) ls [] tx None) as (e & He' & Ee).
    { unfold blank. rewrite owns_app, owns_set_attrs, owns_app, owns_attach. cbn [app]. destruct tx; eexists; split; reflexivity. }
    subst e. pose proof (runs_own max Sd' _ i (blank i nm) _ Hi eq_refl (or_introl eq_refl) He') as R1.
    destruct (makes_list cs IH Hpc Hndc Sd' (fun j => Q j /\ In j (flat_map ids cs)) i nm (extend [] at_) ls [] tx None Hi) as (cs' & Vs & R2).
    { intros j _ []. }
    { pose proof (every_children _ _ He) as Hc. cbn [el_children] in Hc. rewrite Forall_forall in Hc |- *. intros c Hin. specialize (Hc c Hin). apply every_ids in Hc.
      eapply every_impl; [|exact Hc]. cbn beta. intros x [[Hx|Hx] Hx2]; [now left|right]. split; [exact Hx|]. apply in_flat_map. eauto. }
    { intros j [_ Hj] ->. exact (Hni Hj). }
    { now left. }
    { intros j Hj. now right. }
    pose proof (runs_app _ _ _ _ _ _ _ R1 R2) as R. cbn [app] in R.
    exists (Element i nm (extend [] at_) ls cs' tx None). split. { constructor; [|exact Vs]. rewrite extend_nodup by exact Hwf. apply hm_equiv_refl. }
    apply Hfirst. apply (runs_lift max Sd' S); [exact R| |].
    + intros j Hj. assert (Q j /\ In j (ids (Element i nm at_ ls cs tx ky))) as [H1 H2] by (cbn [ids]; destruct Hj as [->|[Hj Hj2]]; split; auto; [now left|now right]).
      split; [now apply Hq|now apply Hav].
    + intros j [->|[Hj _]]; auto.
Qed.

(** *** The edit of a pair *)
(** The ids searched for: those of the old tree and of the new one, except the ids of the nodes it is in. *)
Definition reach (W : list N) (a b : element) (i : N) : Prop := In i (ids a) \/ In i (ids b) /\ ~ In i W.
Definition comes (W : list N) (a b : element) : Prop := exists os, diff_to b a = Some os /\
  forall x, view x a -> exists b', view b' b /\ matched same_key x b' /\ runs (reach W a b) os x b'.
Definition comes_when (d : element) : Prop := forall W c i j i' j', numbered i c j -> numbered i' d j' -> unkeyed c -> unkeyed d ->
  proper max c -> proper max d -> level W c d -> matched keeps c d -> comes W c d.

Lemma matched_list_app_r P cs ds ds' : length cs = length ds -> matched_list P cs ds -> matched_list P cs (ds ++ ds').
Proof. revert ds. induction cs as [|c cs IH]; intros [|d ds]; cbn [length app]; try discriminate; intros E H; [constructor|]. inversion H; subst. constructor; auto. Qed.
Lemma matched_list_firstn P cs ds : matched_list P (firstn (length ds) cs) ds -> matched_list P cs ds.
Proof. revert cs. induction ds as [|d ds IH]; intros [|c cs] H; [constructor|constructor|constructor|]. cbn [length firstn] in H. inversion H; subst. constructor; auto. Qed.

(** The pairs of children in the same position; [r]: the id of their parent. *)
Lemma comes_zip r W ds : Forall comes_when ds -> forall cs i j i' j', numbered_list i cs j -> numbered_list i' ds j' ->
  Forall unkeyed cs -> Forall unkeyed ds -> Forall (proper max) cs -> Forall (proper max) ds ->
  level_list (r :: W) cs ds -> matched_list keeps cs ds -> r < i ->
  exists os, cat_ops (zip_ops ds cs) = Some os /\
    forall (S : N -> Prop) done xs rest n m l t k, (forall x, In x (ids_of done) -> x < i') -> Forall2 view xs (firstn (length ds) cs) ->
      (forall x, In x (ids_of cs) -> S x) -> (forall x, In x (ids_of ds) -> ~ In x (r :: W) -> S x) ->
      exists ys, Forall2 view ys (firstn (length cs) ds) /\ matched_list same_key xs ys /\
        runs S os (Element r n m l (done ++ xs ++ rest) t k) (Element r n m l (done ++ ys ++ rest) t k).
Proof.
  induction 1 as [|d ds Hd _ IH]; intros cs i j i' j' Nc Nd Uc Ud Pc Pd HL HK Hr.
  - exists []. split; [reflexivity|]. intros S done xs rest n m l t k _ Vx _ _. cbn in Vx. inversion Vx; subst. exists []. split; [rewrite firstn_nil; constructor|]. split; constructor.
  - destruct cs as [|c cs].
    { exists []. split; [reflexivity|]. intros S done xs rest n m l t k _ Vx _ _. cbn in Vx. inversion Vx; subst. exists []. split; constructor; constructor. }
    inversion Nc as [|? ? ? j1 ? C1 C2]; subst. inversion Nd as [|? ? ? j1' ? D1 D2]; subst. inversion Uc as [|? ? U1 U2]; subst. inversion Ud as [|? ? V1 V2]; subst.
    inversion Pc as [|? ? P1 P2]; subst. inversion Pd as [|? ? Q1 Q2]; subst. inversion HL as [| |? ? ? ? ? L1 L2]; subst. inversion HK as [| |? ? ? ? K1 K2]; subst.
    pose proof (numbered_range _ _ _ C1) as (R1 & R2 & R3 & _). pose proof (numbered_range _ _ _ D1) as (T1 & T2 & T3 & _).
    destruct (Hd (r :: W) c i j1 i' j1' C1 D1 U1 V1 P1 Q1 L1 K1) as (os1 & Ho1 & Hx1).
    destruct (IH cs j1 j j1' j' C2 D2 U2 V2 P2 Q2 L2 K2) as (os2 & Ho2 & Hx2); [lia|].
    exists (os1 ++ os2). split. { cbn [zip_ops cat_ops]. now rewrite Ho1, Ho2. }
    intros S done xs rest n m l t k Hdone Vx Sc Sd. cbn [length firstn] in Vx |- *. inversion Vx as [|x ? xs' ? W1 W2]; subst.
    destruct (Hx1 x W1) as (y & Vy & My & Ry).
    destruct (Hx2 S (done ++ [y]) xs' rest n m l t k) as (ys & Vys & Mys & Rys); auto.
    { intros z. rewrite ids_of_app, ids_of_one, in_app_iff, (view_ids _ _ Vy). intros [H|H]; [apply Hdone in H; lia|apply T3 in H; lia]. }
    { intros z Hz. apply Sc. rewrite ids_of_cons. apply in_or_app. now right. }
    { intros z Hz. apply Sd. rewrite ids_of_cons. apply in_or_app. now right. }
    exists (y :: ys). split; [now constructor|]. split; [now constructor|]. eapply runs_app; [|rewrite <- !app_assoc in Rys; exact Rys].
    assert (el_id d <= el_id c) as Hle by (now inversion L1).
    apply (runs_lift max (reach (r :: W) c d)); [exact Ry| |].
    + intros z [Hz|[Hz Hw]].
      * apply R3 in Hz. split; [lia|]. intros H. apply Hdone in H. lia.
      * split; [intros ->; apply Hw; now left|]. intros H. apply Hdone in H. apply T3 in Hz. lia.
    + intros z [Hz|[Hz Hw]]; [apply Sc|apply Sd]; try exact Hw; rewrite ids_of_cons; apply in_or_app; now left.
Qed.
Lemma level_added W cs ds : level_list W cs ds -> Forall (every (fun x => In (el_id x) W -> bare x)) (skipn (length cs) ds).
Proof.
  revert ds. induction cs as [|c cs IH]; intros ds H; [inversion H; subst; cbn; auto|]. destruct ds as [|d ds]; [constructor|]. inversion H; subst. cbn [length skipn]. auto.
Qed.

Theorem comes_out b : comes_when b.
Proof.
  induction b as [bi bn ba bl bc bt bk IH] using element_ind2. set (b := Element bi bn ba bl bc bt bk) in *.
  intros W a i j i' j' Na Nb Ua Ub Pa Pb HL HK. pose proof (every_root _ _ Pa) as [Ia Wa]. pose proof (every_root _ _ Pb) as [Ib Wb].
  pose proof (every_children _ _ Pa) as Ca. pose proof (every_children _ _ Pb) as Cb. pose proof (every_children _ _ Ua) as Ka. pose proof (every_children _ _ Ub) as Kb.
  change (el_children b) with bc in *. change (el_id b) with bi in Ib.
  destruct a as [ai an aa al ac at_ ak]. cbn [el_id el_attrs el_children] in *. inversion HL as [? ? ? Hle HLl]; subst. inversion HK as [? ? HKr HKl]; subst.
  change (el_children b) with bc in *. cbn [el_id el_children] in *. change (el_id b) with bi in Hle.
  inversion Na as [? ? ? ? ? ? ? ? Nac]; subst. inversion Nb as [? ? ? ? ? ? ? ? Nbc]; subst.
  set (a := Element ai an aa al ac at_ ak) in *.
  destruct (own_keeps a b Wa Wb HKr) as (l & El & Hl).
  destruct (comes_zip ai W bc IH ac (ai + 1) j (bi + 1) j' Nac Nbc Ka Kb Ca Cb HLl HKl) as (zos & Ez & Hz); [lia|].
  assert ((if all_keyed a && all_keyed b then keyed_kids (el_children a) (el_children b) else plain_kids (el_id a) (el_children a) (el_children b))
    = Some (map (fun c => Op (id_str c) DeleteEl) (skipn (length bc) ac) ++ zos ++ flat_map (fun d => create_from_scratch d (Some (dec ai))) (skipn (length ac) bc))) as Hk.
  { destruct (all_keyed a && all_keyed b) eqn:E.
    - apply andb_true_iff in E as [E1 E2]. apply unkeyed_kids in E1, E2; auto. change (el_children a) with ac in *. change (el_children b) with bc in *. rewrite E1, E2 in *. cbn in Ez. injection Ez as <-. reflexivity.
    - unfold plain_kids. change (el_children a) with ac. change (el_children b) with bc. change (el_id a) with ai. cbn [cat_ops]. rewrite Ez. now rewrite app_nil_r. }
  eexists. split. { rewrite diff_to_eq, Hk. cbn [cat_ops]. reflexivity. }
  intros x Vx. inversion Vx as [? ? xa ? ? xs ? ? xk ? Hxa Hxs]; subst.
  destruct (Hl ai xa xs xk Hxa) as (m' & Ho & Hm'). change (el_name a) with an in Ho. change (el_listeners a) with al in Ho. change (el_text a) with at_ in Ho.
  change (el_name b) with bn in Ho. change (el_listeners b) with bl in Ho. change (el_text b) with bt in Ho.
  set (S := reach W a b). assert (S ai) as Sr by (left; now left).
  assert (forall z, In z (ids_of ac) -> S z) as Sac by (intros z Hz'; left; right; exact Hz').
  assert (forall z, In z (ids_of bc) -> ~ In z (ai :: W) -> S z) as Sbc by (intros z Hz' Hw; right; split; [right; exact Hz'|intros H; apply Hw; now right]).
  (* deletions *)
  assert (runs S (map (fun c => Op (id_str c) DeleteEl) (skipn (length bc) ac)) (Element ai bn m' bl xs bt xk) (Element ai bn m' bl (firstn (length bc) xs) bt xk)) as R1.
  { rewrite <- (firstn_skipn (length bc) xs) at 1. apply deletes_runs; auto.
    - now apply forall2_skipn.
    - pose proof (forall_skipn _ (length bc) _ Ca) as Hp. rewrite Forall_forall in Hp |- *. intros c Hc. split; [apply (every_root _ _ (Hp c Hc))|].
      rewrite <- (firstn_skipn (length bc) ac) in Nac. apply numbered_list_app in Nac as (m & N1 & N2). apply numbered_list_range in N1 as (Q1 & Q2 & _). apply numbered_list_range in N2 as (_ & Q3 & _).
      assert (In (el_id c) (ids_of (skipn (length bc) ac))) as Hx by (apply in_flat_map; exists c; split; [exact Hc|apply in_ids_root]). apply Q3 in Hx.
      split; [lia|]. rewrite (views_ids _ _ (forall2_firstn _ (length bc) _ _ Hxs)). intros Hy. apply Q2 in Hy. lia.
    - intros z Hz'. apply Sac. now apply in_ids_skipn in Hz'. }
  destruct (Hz S [] (firstn (length bc) xs) [] bn m' bl bt xk) as (ys & Vy & My & R2); auto. { intros z []. } { now apply forall2_firstn. }
  rewrite !app_nil_r in R2. cbn [app] in R2.
  (* creations *)
  destruct (makes_list (skipn (length ac) bc)) with (S := S) (Q := fun z => In z (ids_of bc) /\ ~ In z (ai :: W)) (r := ai) (n := bn) (a := m') (l := bl) (L := ys) (t := bt) (k := xk) as (zs & Vz & R3); auto.
  { apply Forall_forall. intros d _. apply make_runs. }
  { now apply forall_skipn. }
  { rewrite <- (firstn_skipn (length ac) bc) in Nbc. apply numbered_list_app in Nbc as (m & _ & N2). now apply numbered_list_range in N2. }
  { intros z Hz' Hy. rewrite (views_ids _ _ Vy) in Hy. rewrite <- (firstn_skipn (length ac) bc) in Nbc. apply numbered_list_app in Nbc as (m & N1 & N2).
    apply numbered_list_range in N1 as (_ & N1 & _). apply numbered_list_range in N2 as (_ & N2 & _). apply N1 in Hy. apply N2 in Hz'. lia. }
  { apply level_added in HLl. rewrite Forall_forall in HLl |- *. intros d Hd. specialize (HLl d Hd). apply every_ids in HLl. eapply every_impl; [|exact HLl]. cbn beta. intros z [Hz1 Hz2].
    destruct (in_dec N.eq_dec (el_id z) (ai :: W)) as [H|H]; [left; auto|right]. split; [|exact H]. unfold ids_of. apply in_flat_map. exists d. split; [|exact Hz2].
    destruct (nth_skip _ _ _ Hd) as (q & _ & Hq). now apply nth_error_In in Hq. }
  { intros z [_ Hz'] ->. apply Hz'. now left. }
  { intros z [H1 H2]. now apply Sbc. }
  exists (Element bi bn m' bl (ys ++ zs) bt xk). split.
  { constructor; [exact Hm'|]. rewrite <- (firstn_skipn (length ac) bc). now apply Forall2_app. }
  split.
  { constructor; [reflexivity|]. cbn [el_children]. pose proof (forall2_len _ _ _ Hxs) as Hlx. pose proof (forall2_len _ _ _ Vy) as Hly. rewrite firstn_length in Hly.
    destruct (Nat.le_gt_cases (length ac) (length bc)) as [Hc|Hc].
    - rewrite firstn_all2 in My by lia. apply matched_list_app_r; [lia|exact My].
    - rewrite (skipn_all2 bc) in Vz by lia. inversion Vz; subst. rewrite app_nil_r. apply matched_list_firstn. replace (length ys) with (length bc) by lia. exact My. }
  eapply runs_app.
  { rewrite El. apply runs_own with (e' := Element ai bn m' bl xs bt xk); auto. }
  rewrite <- !app_assoc. eapply runs_app; [exact R1|]. eapply runs_app; [exact R2|]. eapply runs_app; [exact R3|]. rewrite app_nil_r.
  unfold diff_id. change (el_id b) with bi. change (el_id a) with ai. destruct (N.eqb_spec ai bi) as [->|Hne].
  - constructor.
  - apply (runs_cons max S _ _ _ (Element bi bn m' bl (ys ++ zs) bt xk)).
    + intros z. unfold looks, id_str. cbn [op_instr op_id]. rewrite parse_dec by assumption. intros [= <-]. exact Sr.
    + unfold apply_op, id_str. cbn [op_id op_instr]. rewrite !parse_dec by assumption. now rewrite mutate_root.
    + discriminate.
    + constructor.
Qed.
End Max.
