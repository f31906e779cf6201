(** Keyed children: order, insertion and panics. *)
From Coq Require Import Lia Permutation.
From Verif Require Import Base HMap Num DomModel DomSpec DomProofs DomProofs2 DomProofs3 DomProofs4.

(* ------------------------------------------------------------------ *)
(** ** Kept children stay in the old order *)

Definition in_keys (D : list (option str)) (c : element) : bool := existsb (text_eqb (el_key c)) D.
Definition cur (D : list (option str)) (g : element -> element) (c : element) : element := if in_keys D c then g c else c.
Lemma in_keys_iff D c : in_keys D c = true <-> In (el_key c) D.
Proof.
  unfold in_keys. rewrite existsb_exists. split.
  - intros (k & Hk & E). apply text_eqb_eq in E. now rewrite E.
  - intros H. exists (el_key c). split; [exact H|]. now apply text_eqb_eq.
Qed.
Lemma map_cur_ids D g cs i : (forall c, In c cs -> incl (ids (g c)) (ids c)) -> In i (ids_of (map (cur D g) cs)) -> In i (ids_of cs).
Proof.
  intros Hg. induction cs as [|c cs IH]; cbn [map]; [auto|]. rewrite !ids_of_cons, !in_app_iff. intros [H|H].
  - left. unfold cur in H. destruct (in_keys D c); [|exact H]. apply (Hg c); [now left|exact H].
  - right. apply IH; [|exact H]. intros q Hq. apply Hg. now right.
Qed.

Lemma reorder_pairs max r cs g : NoDup (map el_key cs) -> NoDup (ids_of cs) -> ~ In r (ids_of cs) ->
  Forall (fun c => is_keyed c = true) cs ->
  (forall c, In c cs -> el_key (g c) = el_key c /\ incl (ids (g c)) (ids c)) ->
  forall todo, incl todo cs -> (forall c, In c todo -> edits max c (g c)) -> forall D, NoDup (map el_key todo) -> (forall c, In c todo -> ~ In (el_key c) D) ->
  exists os, cat_ops (pair_ops cs (map g todo)) = Some os /\ (forall i, unpaired cs i (map g todo) = []) /\
    exists D', (forall k, In k D' <-> In k (map el_key todo) \/ In k D) /\
    forall (S : N -> Prop) xs n m l t k, Forall2 view xs (map (cur D g) cs) -> (forall i, In i (ids_of cs) -> S i) ->
      exists ys, Forall2 view ys (map (cur D' g) cs) /\ runs max S os (Element r n m l xs t k) (Element r n m l ys t k).
Proof.
  intros Hk Hnd Hr Hkeyed Hg. induction todo as [|c todo IH]; intros Hin Hed D Hkt HD.
  - exists []. split; [reflexivity|]. split; [reflexivity|]. exists D. split; [cbn; tauto|].
    intros S xs n m l t k V _. exists xs. split; [exact V|constructor].
  - assert (In c cs) as Hc by (apply Hin; now left). destruct (Hed c (or_introl eq_refl)) as (os1 & E1 & R1).
    cbn [map] in Hkt. inversion Hkt as [|? ? K1 K2]; subst.
    destruct (IH (fun x H => Hin x (or_intror H)) (fun x H => Hed x (or_intror H)) (el_key c :: D) K2) as (os2 & E2 & Hu & D' & HD' & R2).
    { intros x Hx [E|E]; [apply K1; rewrite E; now apply in_map|]. exact (HD x (or_intror Hx) E). }
    destruct (in_split _ _ Hc) as (l1 & l2 & Ecs). destruct (Hg c Hc) as (G1 & G2).
    pose proof (proj1 (Forall_forall _ _) Hkeyed c Hc) as Hkc. unfold is_keyed in Hkc. destruct (el_key c) as [key|] eqn:Ekc; [|discriminate]. 
    assert (locate key cs = Some c) as Hl by (rewrite Ecs; apply locate_here; [exact Ekc|now rewrite <- Ecs]).
    exists (os1 ++ os2). split. { cbn [map pair_ops]. rewrite G1, Hl. cbn [cat_ops]. now rewrite E1, E2. }
    split. { intros i. cbn [map unpaired]. rewrite G1, Hl. apply Hu. }
    exists D'. split. { intros k. rewrite HD'. cbn [map]. rewrite Ekc. cbn [In]. tauto. }
    intros S xs n m l t k V SS.
    assert (forall q, In q (l1 ++ l2) -> el_key q <> el_key c) as Hother.
    { intros q Hq Eq. rewrite Ecs, map_app in Hk. cbn [map] in Hk. apply NoDup_remove_2 in Hk. apply Hk. rewrite <- map_app, <- Eq. now apply in_map. }
    assert (cur D g c = c) as Ec.
    { unfold cur. destruct (in_keys D c) eqn:E; [|reflexivity]. apply in_keys_iff in E. exfalso. exact (HD c (or_introl eq_refl) E). }
    rewrite Ecs, map_app in V. cbn [map] in V. rewrite Ec in V. apply Forall2_app_inv_r in V as (x1 & x2' & V1 & V2 & ->).
    inversion V2 as [|x ? x2 ? Vx V3]; subst x2'. subst. 
    destruct (R1 x Vx) as (y & Vy & Ry).
    destruct (R2 S (x1 ++ y :: x2) n m l t k) as (ys & Vys & Rys).
    { rewrite map_app. cbn [map]. assert (forall ls, incl ls (l1 ++ l2) -> map (cur (Some key :: D) g) ls = map (cur D g) ls) as Em.
      { intros ls Hls. apply map_ext_in. intros q Hq. unfold cur. destruct (in_keys D q) eqn:E.
        - apply in_keys_iff in E. assert (in_keys (Some key :: D) q = true) as -> by (apply in_keys_iff; now right). reflexivity.
        - destruct (in_keys (Some key :: D) q) eqn:E'; [|reflexivity]. apply in_keys_iff in E' as [E'|E'].
          + exfalso. apply (Hother q (Hls q Hq)). congruence.
          + apply in_keys_iff in E'. congruence. }
      rewrite (Em l1), (Em l2) by (intros q Hq; apply in_or_app; auto).
      apply Forall2_app; [exact V1|]. constructor; [|exact V3]. unfold cur.
      assert (in_keys (Some key :: D) c = true) as -> by (apply in_keys_iff; left; now symmetry). exact Vy. }
    { exact SS. }
    exists ys. split; [exact Vys|]. eapply runs_app; [|exact Rys].
    apply (runs_lift max (fun i => In i (ids c) \/ In i (created (g c) c)) S os1 x y r n m l x1 x2 t k Ry).
    + intros i Hi. assert (In i (ids c)) as Hic by (destruct Hi as [Hi|Hi]; [exact Hi|apply G2; now apply created_incl_ids in Hi]).
      rewrite ids_of_app, ids_of_cons in Hr, Hnd. split.
      * intros ->. apply Hr. apply in_or_app. right. apply in_or_app. now left.
      * rewrite (views_ids _ _ V1). intros H. apply map_cur_ids in H.
        -- apply nodup_app_iff in Hnd as (_ & _ & Hd). apply (Hd i H). apply in_or_app. now left.
        -- intros q Hq. apply Hg. apply in_or_app. now left.
    + intros i Hi. apply SS. rewrite ids_of_app, ids_of_cons, !in_app_iff. right. left.
      destruct Hi as [Hi|Hi]; [exact Hi|apply G2; now apply created_incl_ids in Hi].
Qed.

Lemma keyed_deletes_perm mine ds ds' : Permutation ds ds' -> keyed_deletes mine ds = keyed_deletes mine ds'.
Proof.
  intros P. unfold keyed_deletes. apply flat_map_ext. intros c. destruct (el_key c) as [k|]; [|reflexivity].
  assert (locate k ds = None <-> locate k ds' = None) as H.
  { rewrite <- !locate_none. split; intros H H'; apply H; (eapply Permutation_in; [|exact H']; apply Permutation_map); [now symmetry|exact P]. }
  destruct (locate k ds), (locate k ds'); auto; exfalso; destruct H as [H1 H2]; [specialize (H2 eq_refl)|specialize (H1 eq_refl)]; discriminate.
Qed.
Lemma mixed_update (keep : element -> bool) g cs : NoDup (map el_key cs) -> (forall c, In c cs -> el_key (g c) = el_key c) ->
  mixed (map (fun c => if keep c then g c else c) cs) cs (map g (filter keep cs)).
Proof.
  intros Hk Hg. induction cs as [|c cs IH]; cbn [map filter]; [constructor|]. cbn [map] in Hk. inversion Hk as [|? ? K1 K2]; subst.
  assert (forall q, In q cs -> el_key (g q) = el_key q) as Hg2 by (intros q Hq; apply Hg; now right).
  destruct (keep c); cbn [map].
  - apply mx_pair; [symmetry; apply Hg; now left|auto].
  - apply mx_drop; [|auto]. intros H. apply K1. apply in_map_iff in H as (d & E & Hd). apply in_map_iff in Hd as (q & <- & Hq).
    apply filter_In in Hq as [Hq _]. rewrite Hg2 in E by exact Hq. rewrite <- E. now apply in_map.
Qed.

Lemma keyed_order max a b (keep : element -> bool) (g : element -> element) :
  proper max a -> proper max b -> NoDup (ids a) -> el_id a = el_id b ->
  all_keyed a = true -> NoDup (map el_key (el_children a)) ->
  Permutation (el_children b) (map g (filter keep (el_children a))) ->
  (forall c, In c (el_children a) -> el_key (g c) = el_key c /\ safe c (g c) /\ incl (ids (g c)) (ids c)) ->
  exists os b', diff a (Some b) = Some os /\ apply max os a = Some b' /\
    view b' (with_children (map g (filter keep (el_children a))) b).
Proof.
  intros Pa Pb Hnd Hid Ka Hk P Hg. pose proof (every_root _ _ Pa) as [Ia Wa]. pose proof (every_root _ _ Pb) as [Ib Wb].
  pose proof (every_children _ _ Pa) as Ca. pose proof (every_children _ _ Pb) as Cb.
  destruct (Permutation_map_inv _ _ P) as (todo & Eb & Pt).
  assert (incl todo (el_children a)) as Hin.
  { intros x Hx. symmetry in Pt. apply (Permutation_in _ Pt) in Hx. now apply filter_In in Hx. }
  assert (NoDup (map el_key todo)) as Ht.
  { apply (Permutation_NoDup (l := map el_key (filter keep (el_children a)))); [now apply Permutation_map|].
    clear -Hk. induction (el_children a) as [|c cs IH]; [constructor|]. cbn [map] in Hk. inversion Hk as [|? ? H1 H2]; subst.
    cbn [filter]. destruct (keep c); [|auto]. cbn [map]. constructor; [|auto]. intros H. apply H1.
    apply in_map_iff in H as (x & Ex & Hx). apply filter_In in Hx as [Hx _]. apply in_map_iff. now exists x. }
  assert (all_keyed b = true) as Kb.
  { unfold all_keyed in *. rewrite Eb. rewrite forallb_forall in Ka |- *. intros d Hd. apply in_map_iff in Hd as (c & <- & Hc).
    apply Hin in Hc. destruct (Hg c Hc) as (E & _). specialize (Ka c Hc). unfold is_keyed in *. now rewrite E. }
  assert (Forall (fun c => is_keyed c = true) (el_children a)) as Kc by (unfold all_keyed in Ka; now apply Forall_forall, forallb_forall).
  assert (NoDup (ids_of (el_children a)) /\ ~ In (el_id a) (ids_of (el_children a))) as [N2 N1].
  { destruct a as [ai an aa al ac at_ ak]. cbn [ids el_children el_id] in *. inversion Hnd; auto. }
  assert (forall c, In c todo -> edits max c (g c)) as Hed.
  { intros c Hc. apply safe_edits; [apply Hg; auto| |].
    - rewrite Forall_forall in Ca. apply Ca. auto.
    - rewrite Forall_forall in Cb. apply Cb. rewrite Eb. now apply in_map. }
  destruct (reorder_pairs max (el_id a) (el_children a) g Hk N2 N1 Kc (fun c H => conj (proj1 (Hg c H)) (proj2 (proj2 (Hg c H)))) todo Hin Hed [] Ht (fun _ _ H => H))
    as (os & Eo & Hu & D' & HD' & R).
  assert (keyed_safe safe (el_id a) [] (el_children a) (map g (filter keep (el_children a)))) as Hks.
  { apply (keyed_filter_safe safe keep g _ _ N2 N1 Hk) with (done0 := []); auto. intros x []. }
  destruct (diff_own_spec a b Wa Wb (or_introl Hid)) as (l & El & Hl).
  assert (diff a (Some b) = Some (diff_own a b ++ (os ++ keyed_deletes (el_children a) (el_children b)) ++ [])) as Ed.
  { cbn [diff]. rewrite diff_to_eq, Ka, Kb. cbn [andb]. unfold keyed_kids. rewrite Eb, Eo, (Hu 0). cbn [length map cat_ops].
    unfold diff_id. rewrite Hid, N.eqb_refl. cbn [app]. now rewrite !app_nil_r. }
  destruct a as [ai an aa al ac at_ ak]. destruct b as [bi bn ba bl bc bt bk].
  cbn [el_id el_name el_attrs el_listeners el_children el_text with_children] in *. subst bi.
  destruct (Hl ai aa ac ak (hm_equiv_refl _)) as (m' & Ho & Hm').
  set (U := fun _ : N => True).
  destruct (R U ac bn m' bl bt ak) as (ys & Vy & R1).
  { rewrite map_ext with (g := fun c => c), map_id; [apply views_refl|]. intros c. unfold cur. reflexivity. }
  { intros i _. exact Logic.I. }
  assert (map (cur D' g) ac = map (fun c => if keep c then g c else c) ac) as Em.
  { apply map_ext_in. intros c Hc. unfold cur. destruct (keep c) eqn:Ekp.
    - assert (in_keys D' c = true) as ->; [|reflexivity]. apply in_keys_iff, HD'. left. apply in_map.
      apply (Permutation_in _ Pt). apply filter_In. auto.
    - destruct (in_keys D' c) eqn:E; [|reflexivity]. apply in_keys_iff, HD' in E as [E|[]]. apply in_map_iff in E as (q & Eq & Hq).
      symmetry in Pt. apply (Permutation_in _ Pt) in Hq. apply filter_In in Hq as [Hq Hkq].
      assert (q = c) as ->; [|congruence].
      clear -Hk Hq Hc Eq. induction ac as [|x ac IH]; [contradiction|]. cbn [map] in Hk. inversion Hk as [|? ? H1 H2]; subst.
      destruct Hq as [->|Hq], Hc as [->|Hc]; auto; exfalso; apply H1; apply in_map_iff; eauto. }
  rewrite Em in Vy.
  destruct (keyed_drops max (map g (filter keep ac)) ai [] ac _ Hks _ [] (mixed_update keep g ac Hk (fun c H => proj1 (Hg c H))) Kc)
    with (S := U) (done1 := @nil element) (done' := @nil element) (xs := ys) (n := bn) (m := m') (l := bl) (t := bt) (k := ak) as (zs & Vz & R2); auto.
  { exists []. split; [reflexivity|]. intros ? []. }
  { exact Logic.I. }
  { intros i _. exact Logic.I. }
  cbn [app] in R2. do 2 eexists. split; [exact Ed|]. split.
  - eapply runs_apply. eapply runs_app; [|eapply runs_app; [|apply runs_nil]].
    + rewrite El. apply (runs_own max U) with (e' := Element ai bn m' bl ac bt ak); auto. exact Logic.I.
    + eapply runs_app; [exact R1|]. rewrite (keyed_deletes_perm ac bc _ P). exact R2.
  - now constructor.
Qed.

(* ------------------------------------------------------------------ *)
(** ** Which ids a changeset can bring into a tree *)

Lemma parse_dec_only max n v : parse_uint max (dec n) = Some v -> v = n.
Proof.
  intros H. apply parse_uint_spec in H as (ds & [E|E] & _ & F & -> & _).
  - rewrite <- E. apply dec_value.
  - exfalso. pose proof (dec_digits n) as D. rewrite E in D. inversion D as [|? ? D1 _]; subst. now vm_compute in D1.
Qed.

Definition brings (max : N) (o : op) (i : N) : Prop :=
  match op_instr o with
  | CreateTag _ _ => parse_uint max (op_id o) = Some i
  | SetId v => parse_uint max v = Some i
  | InsertChild v => parse_uint max v = Some i
  | _ => False
  end.

Lemma mutate_ids (Q : N -> Prop) i f e e' : mutate i f e = Some e' ->
  (forall x x', f x = Some x' -> forall j, In j (ids x') -> In j (ids x) \/ Q j) -> forall j, In j (ids e') -> In j (ids e) \/ Q j.
Proof.
  intros H Hf. unfold mutate in H. destruct (find_mutate i f e) as [[x|]|] eqn:E; try discriminate. injection H as <-. revert x E.
  induction e as [ei n a l cs t k IH] using element_ind2. intros x E j Hj. rewrite find_mutate_eq in E. destruct (N.eqb i ei).
  - injection E as E. exact (Hf _ _ E j Hj).
  - destruct (find_list i f cs) as [[cs'|]|] eqn:El; try discriminate. injection E as <-. cbn [ids] in *. destruct Hj as [<-|Hj]; [left; now left|].
    enough (In j (flat_map ids cs) \/ Q j) by (cbn [In]; tauto). clear n a l t k. revert cs' El Hj. induction IH as [|c cs Hc _ IHcs]; intros cs' El Hj; cbn [find_list] in El; [discriminate|].
    cbn [flat_map]. rewrite in_app_iff. destruct (find_mutate i f c) as [[c'|]|] eqn:Ec; try discriminate.
    + injection El as <-. cbn [flat_map] in Hj. apply in_app_or in Hj as [Hj|Hj]; [|tauto]. destruct (Hc c' eq_refl j Hj); tauto.
    + destruct (find_list i f cs) as [[l'|]|] eqn:El'; try discriminate. injection El as <-. cbn [flat_map] in Hj. apply in_app_or in Hj as [Hj|Hj]; [tauto|].
      destruct (IHcs l' eq_refl Hj); tauto.
Qed.
Lemma ids_children cs e : ids (with_children cs e) = el_id e :: ids_of cs.
Proof. now destruct e. Qed.
Lemma in_ids_kids j e : In j (ids_of (el_children e)) -> In j (ids e).
Proof. destruct e. cbn. auto. Qed.
Lemma position_in p l n : position p l = Some n -> exists c, In c l /\ p c = true.
Proof.
  revert n. induction l as [|c l IH]; intros n; cbn [position]; [discriminate|]. destruct (p c) eqn:E; [intros _; exists c; split; [now left|exact E]|].
  destruct (position p l) as [m|]; [|discriminate]. intros _. destruct (IH m eq_refl) as (x & Hx & Hp). exists x. split; [now right|exact Hp].
Qed.
Lemma in_ids_firstn_skipn j n l : In j (ids_of (firstn n l)) \/ In j (ids_of (skipn n l)) -> In j (ids_of l).
Proof. intros H. rewrite <- (firstn_skipn n l), ids_of_app. apply in_or_app. exact H. Qed.
Lemma insert_ids n j0 l j : In j (ids_of (insert_at n (blank j0 []) l)) -> In j (ids_of l) \/ j = j0.
Proof.
  unfold insert_at. rewrite ids_of_app, ids_of_cons, !in_app_iff. cbn [ids blank flat_map]. intros [H|[[H|[]]|H]]; [| now right |];
  left; apply (in_ids_firstn_skipn j n); tauto.
Qed.

Lemma apply_op_ids max o e e' : apply_op max o e = Some e' -> forall j, In j (ids e') -> In j (ids e) \/ brings max o j.
Proof.
  assert (forall x, In (el_id x) (ids x)) as R by apply in_ids_root.
  intros H j Hj. unfold apply_op in H. destruct (parse_uint max (op_id o)) as [i|] eqn:Ei; [|discriminate]. unfold brings. rewrite Ei.
  destruct (op_instr o) as [nid|aid|bid|k0 v0|k0|v0|w0|n0|n0 p0| | |n0 ev0|k1 h0| ] eqn:Eo; try discriminate H;
  try (apply (mutate_ids (fun _ => False) _ _ _ _ H); [|exact Hj]; intros x x' [= <-] q Hq; left; destruct x; exact Hq).
  all: idtac.
  - destruct (parse_uint max nid) as [c|] eqn:Ec; [|discriminate].
    apply (mutate_ids (fun q => Some c = Some q) _ _ _ _ H); [|exact Hj]. intros x x' [= <-] q. rewrite ids_children, ids_of_app.
    intros [<-|Hq]; [left; apply R|]. apply in_app_or in Hq as [Hq|[<-|[]]]; [left; now apply in_ids_kids|now right].
  - apply (mutate_ids (fun _ => False) _ _ _ _ H); [|exact Hj]. intros x x' Hf q Hq. left.
    destruct (el_children x) as [|c0 cs0] eqn:Ex; [discriminate|]. rewrite <- Ex in Hf. destruct (parse_uint max aid) as [c|]; [|discriminate].
    destruct (position _ _) as [p|] eqn:Ep; [|discriminate]. injection Hf as <-. rewrite ids_children in Hq. destruct Hq as [<-|Hq]; [apply R|].
    apply in_ids_kids. apply insert_ids in Hq as [Hq | ->]; [exact Hq|]. apply position_in in Ep as (d & Hd & Ed). apply N.eqb_eq in Ed as <-.
    unfold ids_of. apply in_flat_map. exists d. split; [exact Hd|apply R].
  - apply (mutate_ids (fun _ => False) _ _ _ _ H); [|exact Hj]. intros x x' Hf q Hq. left.
    destruct (el_children x) as [|c0 cs0] eqn:Ex; [discriminate|]. rewrite <- Ex in Hf. destruct (parse_uint max bid) as [c|]; [|discriminate].
    destruct (position _ _) as [p|] eqn:Ep; [|discriminate]. injection Hf as <-. rewrite ids_children in Hq. destruct Hq as [<-|Hq]; [apply R|].
    apply in_ids_kids. apply insert_ids in Hq as [Hq | ->]; [exact Hq|]. apply position_in in Ep as (d & Hd & Ed). apply N.eqb_eq in Ed as <-.
    unfold ids_of. apply in_flat_map. exists d. split; [exact Hd|apply R].
  - destruct (parse_uint max v0) as [c|] eqn:Ec; [|discriminate].
    apply (mutate_ids (fun q => Some c = Some q) _ _ _ _ H); [|exact Hj]. intros x x' [= <-] q Hq. destruct x. cbn [with_id ids] in *.
    destruct Hq as [<-|Hq]; [now right|left; now right].
  - destruct p0 as [p|]; [|discriminate]. destruct (parse_uint max p) as [c|]; [|discriminate].
    apply (mutate_ids (fun q => Some i = Some q) _ _ _ _ H); [|exact Hj]. intros x x' [= <-] q. rewrite ids_children, ids_of_app.
    intros [<-|Hq]; [left; apply R|]. apply in_app_or in Hq as [Hq|[<-|[]]]; [left; now apply in_ids_kids|now right].
  - destruct (find_parent_id e i) as [p|]; [|discriminate].
    apply (mutate_ids (fun _ => False) _ _ _ _ H); [|exact Hj]. intros x x' Hf q Hq. left.
    destruct (position _ _) as [n|]; [|discriminate]. injection Hf as <-. rewrite ids_children in Hq. destruct Hq as [<-|Hq]; [apply R|].
    apply in_ids_kids. unfold remove_at in Hq. rewrite ids_of_app in Hq. apply in_app_or in Hq as [Hq|Hq].
    + now apply in_ids_firstn in Hq.
    + now apply in_ids_skipn in Hq.
Qed.
Lemma apply_ids max os e e' j : apply max os e = Some e' -> In j (ids e') -> In j (ids e) \/ exists o, In o os /\ brings max o j.
Proof.
  revert e. induction os as [|o os IH]; intros e; cbn [apply]; [intros [= ->]; auto|].
  destruct (apply_op max o e) as [e1|] eqn:E; [|discriminate]. intros H Hj. destruct (IH e1 H Hj) as [H1|(o' & Ho & Hb)].
  - destruct (apply_op_ids max o e e1 E j H1) as [?|?]; [now left|right; exists o; split; [now left|assumption]].
  - right. exists o'. split; [now right|exact Hb].
Qed.

Lemma cat_in l os o : cat_ops l = Some os -> In o os -> exists os', In (Some os') l /\ In o os'.
Proof.
  revert os. induction l as [|x l IH]; intros os; cbn [cat_ops]; [intros [= <-] []|]. destruct x as [x|]; [|discriminate].
  destruct (cat_ops l) as [r|]; [|discriminate]. intros [= <-] H. apply in_app_or in H as [H|H].
  - exists x. split; [now left|exact H].
  - destruct (IH r eq_refl H) as (os' & H1 & H2). exists os'. split; [now right|exact H2].
Qed.
Lemma own_brings max a b o j : In o (diff_own a b) -> ~ brings max o j.
Proof.
  unfold diff_own, brings. rewrite !in_app_iff. intros [H|[H|[H|H]]].
  - unfold diff_name in H. destruct (str_eqb _ _); [destruct H|]. destruct H as [<-|[]]. cbn. tauto.
  - unfold diff_attributes in H. destruct (hm_eqb _ _); [destruct H|]. apply in_app_or in H as [H|H]; apply in_flat_map in H as (kv & _ & H).
    + destruct (contains_key _ _); [destruct H|]. destruct H as [<-|[]]. cbn. tauto.
    + destruct (get _ _); [destruct (str_eqb _ _); [destruct H|]|]; destruct H as [<-|[]]; cbn; tauto.
  - unfold diff_text in H. destruct (text_eqb _ _); [destruct H|]. destruct (el_text b); destruct H as [<-|[]]; cbn; tauto.
  - unfold diff_listeners in H. destruct (listeners_eqb _ _); [destruct H|]. destruct H as [<-|H]; [cbn; tauto|].
    unfold generate_listeners in H. apply in_map_iff in H as (l & <- & _). cbn. tauto.
Qed.
Lemma create_brings max d : forall p o j, In o (create_from_scratch d p) -> brings max o j -> In j (ids d).
Proof.
  induction d as [i n a l cs t k IH] using element_ind2. intros p o j. rewrite create_eq. unfold brings. cbn [ids].
  intros [<-|H] Hb; [cbn in Hb; apply parse_dec_only in Hb; now left|]. apply in_app_or in H as [H|H].
  - exfalso. apply in_map_iff in H as (ins & <- & H). cbn [op_instr] in Hb. rewrite !in_app_iff in H. destruct H as [H|[H|H]].
    + apply in_map_iff in H as (kv & <- & _). destruct Hb.
    + apply in_map_iff in H as (kv & <- & _). destruct Hb.
    + destruct t; [destruct H as [<-|[]]; destruct Hb|destruct H].
  - right. apply in_flat_map in H as (c & Hc & H). rewrite Forall_forall in IH. apply in_flat_map. exists c. split; [exact Hc|]. eapply IH; eauto.
Qed.
Lemma diff_brings max b : forall a os o j, diff_to b a = Some os -> In o os -> brings max o j -> In j (ids b).
Proof.
  induction b as [bi bn ba bl bc bt bk IH] using element_ind2. intros a os o j E Ho Hb. rewrite diff_to_eq in E.
  apply (cat_in _ _ _ E) in Ho as (os' & Hl & Ho). cbn [In] in Hl. destruct Hl as [Hl|[Hl|[Hl|[]]]].
  - injection Hl as <-. now apply own_brings with (max := max) (j := j) in Ho.
  - cbn [ids]. right. assert (forall d c os1, In d bc -> diff_to d c = Some os1 -> In o os1 -> In j (flat_map ids bc)) as Hd.
    { intros d c os1 Hin E1 Ho1. rewrite Forall_forall in IH. apply in_flat_map. exists d. split; [exact Hin|]. eapply IH; eauto. }
    destruct (all_keyed a && _).
    + unfold keyed_kids in Hl. apply (cat_in _ _ _ Hl) in Ho as (os2 & Hl2 & Ho). cbn [In el_children] in Hl2. destruct Hl2 as [H|[H|[H|[]]]].
      * apply (cat_in _ _ _ H) in Ho as (os3 & H3 & Ho). clear -Hd H3 Ho Hb.
        assert (forall ds, incl ds bc -> In (Some os3) (pair_ops (el_children a) ds) -> In j (flat_map ids bc)) as G; [|apply (G bc); [intros ? ?; assumption|exact H3]].
        clear H3. induction ds as [|d ds IHds]; intros Hi H3; cbn [pair_ops] in H3; [destruct H3|].
        assert (In (Some os3) (pair_ops (el_children a) ds) -> In j (flat_map ids bc)) as G by (apply IHds; intros x Hx; apply Hi; now right).
        destruct (el_key d); [|auto]. destruct (locate _ _) as [c|]; [|auto]. destruct H3 as [H3|H3]; [|auto]. apply (Hd d c os3); auto. apply Hi. now left.
      * apply (cat_in _ _ _ H) in Ho as (os3 & H3 & Ho). apply in_map_iff in H3 as (n & H3 & _). unfold keyed_insert in H3.
        destruct (nth_error bc n); [|discriminate]. exfalso. unfold brings in Hb.
        destruct (Nat.eqb n 0); [|destruct (Nat.eqb n _)]; [destruct (nth_error bc 1); [|discriminate]| |destruct (nth_error bc _); [|discriminate]];
          injection H3 as <-; destruct Ho as [<-|[]]; exact Hb.
      * injection H as <-. exfalso. unfold keyed_deletes in Ho. apply in_flat_map in Ho as (c & _ & Ho). destruct (el_key c); [|destruct Ho].
        destruct (locate _ _); [destruct Ho|]. destruct Ho as [<-|[]]. exact Hb.
    + unfold plain_kids in Hl. apply (cat_in _ _ _ Hl) in Ho as (os2 & Hl2 & Ho). cbn [In el_children] in Hl2. destruct Hl2 as [H|[H|[H|[]]]].
      * injection H as <-. exfalso. apply in_map_iff in Ho as (c & <- & _). exact Hb.
      * apply (cat_in _ _ _ H) in Ho as (os3 & H3 & Ho). clear -Hd H3 Ho Hb.
        assert (forall ds cs, incl ds bc -> In (Some os3) (zip_ops ds cs) -> In j (flat_map ids bc)) as G; [|apply (G bc (el_children a)); [intros ? ?; assumption|exact H3]].
        clear H3. induction ds as [|d ds IHds]; intros [|c cs] Hi H3; cbn [zip_ops] in H3; try (now destruct H3). destruct H3 as [H3|H3].
        -- apply (Hd d c os3); auto. apply Hi. now left.
        -- apply (IHds cs); [|exact H3]. intros x Hx. apply Hi. now right.
      * injection H as <-. apply in_flat_map in Ho as (d & Hin & Ho). apply in_flat_map. exists d. split; [|eapply create_brings; eauto].
        rewrite <- (firstn_skipn (length (el_children a)) bc). apply in_or_app. now right.
  - injection Hl as <-. unfold diff_id in Ho. destruct (N.eqb _ _); [destruct Ho|]. destruct Ho as [<-|[]]. unfold brings in Hb. cbn in Hb.
    unfold id_str in Hb. apply parse_dec_only in Hb. now left.
Qed.

Lemma unpaired_in mine ds d : In d ds -> ~ In (el_key d) (map el_key mine) -> forall i, exists n, In (i + n) (unpaired mine i ds) /\ nth_error ds n = Some d.
Proof.
  intros Hin Hk. induction ds as [|x ds IH]; [destruct Hin|]. intros i. cbn [unpaired]. destruct Hin as [->|Hin].
  - exists 0. split; [|reflexivity]. rewrite Nat.add_0_r. destruct (el_key d) as [k|]; [|now left].
    assert (locate k mine = None) as -> by now apply locate_none. now left.
  - destruct (IH Hin (S i)) as (n & Hn & E). exists (S n). split; [|exact E]. replace (i + S n) with (S i + n) by lia.
    destruct (el_key x) as [k|]; [destruct (locate k mine)|]; [exact Hn|now right|now right].
Qed.
Lemma cat_one l x : In (Some x) l -> forall os, cat_ops l = Some os -> exists o1 o2, os = o1 ++ x ++ o2.
Proof.
  induction l as [|y l IH]; intros Hin os; [destruct Hin|]. cbn [cat_ops]. destruct y as [y|]; [|discriminate].
  destruct (cat_ops l) as [r|]; [|discriminate]. intros [= <-]. destruct Hin as [E|Hin].
  - injection E as ->. exists [], r. reflexivity.
  - destruct (IH Hin r eq_refl) as (o1 & o2 & ->). exists (y ++ o1), o2. now rewrite <- app_assoc.
Qed.
Lemma apply_app max os1 os2 e : apply max (os1 ++ os2) e = match apply max os1 e with Some e' => apply max os2 e' | None => None end.
Proof. revert e. induction os1 as [|o os1 IH]; intros e; cbn [app apply]; [reflexivity|]. now destruct (apply_op max o e). Qed.

(** A new keyed child is announced by an instruction addressed to the node that does not exist yet. *)
Lemma insertion_panics max a b d os x : all_keyed a = true -> all_keyed b = true -> NoDup (ids b) ->
  In d (el_children b) -> ~ In (el_key d) (map el_key (el_children a)) ->
  ids x = ids a -> ~ In (el_id d) (ids a) -> diff a (Some b) = Some os -> apply max os x = None.
Proof.
  intros Ka Kb Hnd Hd Hk Hx Hi E. cbn [diff] in E. pose proof E as Ewhole. rewrite diff_to_eq, Ka, Kb in E. cbn [andb cat_ops] in E.
  destruct (keyed_kids _ _) as [kos|] eqn:Ek; [|discriminate]. injection E as E. rewrite app_nil_r in E.
  unfold keyed_kids in Ek. cbn [cat_ops] in Ek. destruct (cat_ops (pair_ops _ _)) as [pos|] eqn:Ep; [|discriminate].
  destruct (cat_ops (map _ _)) as [ios|] eqn:Ei; [|discriminate]. injection Ek as Ek. rewrite app_nil_r in Ek.
  destruct (unpaired_in (el_children a) (el_children b) d Hd Hk 0) as (n & Hn & En). cbn [Nat.add] in Hn.
  assert (exists ins, keyed_insert (el_children b) (length (unpaired (el_children a) 0 (el_children b))) n = Some [Op (id_str d) ins] /\
    ((exists y, ins = InsertBefore y) \/ (exists y, ins = InsertAfter y))) as (ins & Hins & Hwhich).
  { assert (In (keyed_insert (el_children b) (length (unpaired (el_children a) 0 (el_children b))) n)
      (map (keyed_insert (el_children b) (length (unpaired (el_children a) 0 (el_children b)))) (unpaired (el_children a) 0 (el_children b)))) as Hm by now apply in_map.
    destruct (keyed_insert _ _ n) as [l|] eqn:El.
    - unfold keyed_insert in El. rewrite En in El. destruct (Nat.eqb n 0); [|destruct (Nat.eqb n _)];
        [destruct (nth_error _ 1); [|discriminate]| |destruct (nth_error _ (n - 1)); [|discriminate]]; injection El as <-; eexists; split; eauto.
    - exfalso. clear -Ei Hm. revert Ei Hm. generalize (map (keyed_insert (el_children b) (length (unpaired (el_children a) 0 (el_children b)))) (unpaired (el_children a) 0 (el_children b))).
      intros l. revert ios. induction l as [|q l IH]; intros ios Ei Hm; [destruct Hm|]. cbn [cat_ops] in Ei. destruct q as [q|]; [|discriminate].
      destruct (cat_ops l) as [r|] eqn:Er; [|discriminate]. destruct Hm as [Hm|Hm]; [discriminate|eauto]. }
  assert (In (Some [Op (id_str d) ins]) (map (keyed_insert (el_children b) (length (unpaired (el_children a) 0 (el_children b)))) (unpaired (el_children a) 0 (el_children b)))) as Hm.
  { rewrite <- Hins. now apply in_map. }
  destruct (cat_one _ _ Hm _ Ei) as (i1 & i2 & Ei12).
  assert (os = (diff_own a b ++ pos ++ i1) ++ Op (id_str d) ins :: (i2 ++ keyed_deletes (el_children a) (el_children b) ++ diff_id a b)) as Eos.
  { rewrite <- E, <- Ek, Ei12. cbn [app]. repeat (rewrite <- app_assoc; cbn [app]). reflexivity. }
  rewrite Eos, apply_app. destruct (apply max (diff_own a b ++ pos ++ i1) x) as [y|] eqn:Ey; [|reflexivity]. cbn [apply].
  assert (~ In (el_id d) (ids y)) as Hy.
  { intros H. destruct (apply_ids max _ _ _ _ Ey H) as [H1|(o & Ho & Hb)]; [congruence|]. rewrite !in_app_iff in Ho. destruct Ho as [Ho|[Ho|Ho]].
    - exact (own_brings max a b o _ Ho Hb).
    - apply (cat_in _ _ _ Ep) in Ho as (os3 & H3 & Ho).
      assert (exists d' c, In d' (el_children b) /\ d' <> d /\ diff_to d' c = Some os3) as (d' & c & Hd' & Hne & Ed').
      { clear -H3 Hk. assert (forall ds, In (Some os3) (pair_ops (el_children a) ds) -> exists d' c, In d' ds /\ d' <> d /\ diff_to d' c = Some os3) as G; [|auto].
        induction ds as [|q ds IH]; cbn [pair_ops]; [intros []|].
        assert (In (Some os3) (pair_ops (el_children a) ds) -> exists d' c, In d' (q :: ds) /\ d' <> d /\ diff_to d' c = Some os3) as G.
        { intros H. destruct (IH H) as (d' & c & H1 & H2 & H4'). exists d', c. split; [now right|auto]. }
        destruct (el_key q) as [k|] eqn:Eq; [|exact G]. destruct (locate k (el_children a)) as [c|] eqn:El; [|exact G]. intros [H|H]; [|auto].
        exists q, c. split; [now left|]. split; [|exact H]. intros ->. apply Hk. rewrite Eq.
        unfold locate in El. apply find_some in El as [H1 H2]. unfold key_is in H2. destruct (el_key c) as [k'|] eqn:Ec; [|discriminate].
        apply str_eqb_eq in H2 as ->. rewrite <- Ec. now apply in_map. }
      pose proof (diff_brings max d' c os3 o _ Ed' Ho Hb) as Hin. apply Hne. clear -Hnd Hd Hd' Hin.
      destruct b as [bi bn ba bl bc bt bk]. cbn [ids el_children] in *. inversion Hnd as [|? ? _ N]; subst. clear Hnd.
      induction bc as [|q bc IH]; [destruct Hd|]. cbn [flat_map] in N. apply nodup_app_iff in N as (N1 & N2 & N3). destruct Hd as [->|Hd], Hd' as [->|Hd']; auto; exfalso.
      + apply (N3 (el_id d)); [apply in_ids_root|]. apply in_flat_map. eauto.
      + apply (N3 (el_id d)); [exact Hin|]. apply in_flat_map. exists d. split; [exact Hd|apply in_ids_root].
    - assert (In o ios) as Ho' by (rewrite Ei12; apply in_or_app; now left).
      apply (cat_in _ _ _ Ei) in Ho' as (os3 & H3 & Ho3). apply in_map_iff in H3 as (q & H3 & _). unfold keyed_insert in H3.
      destruct (nth_error _ q); [|discriminate]. unfold brings in Hb.
      destruct (Nat.eqb q 0); [|destruct (Nat.eqb q _)]; [destruct (nth_error _ 1); [|discriminate]| |destruct (nth_error _ (q - 1)); [|discriminate]];
        injection H3 as <-; destruct Ho3 as [<-|[]]; exact Hb. }
  assert (apply_op max (Op (id_str d) ins) y = None) as ->; [|reflexivity].
  unfold apply_op, id_str. cbn [op_id op_instr]. destruct (parse_uint max (dec (el_id d))) as [i|] eqn:Epi; [|reflexivity]. apply parse_dec_only in Epi as ->.
  destruct Hwhich as [(z & ->)|(z & ->)]; cbn [op_instr];
  (match goal with |- mutate ?i ?f ?e = None => destruct (mutate i f e) as [w|] eqn:Ew; [|reflexivity]; exfalso; apply Hy; exact (mutate_found _ _ _ _ Ew) end).
Qed.
