(** The main theorem about diff and apply. *)
From Verif Require Import Base HMap Num DomModel DomSpec DomProofs DomProofs2.
From Coq Require Import Lia.

(* ------------------------------------------------------------------ *)
(** ** Unfolding [diff_to] *)

Fixpoint zip_ops (ds cs : list element) : list (option (list op)) :=
  match ds, cs with
  | d :: ds', c :: cs' => diff_to d c :: zip_ops ds' cs'
  | _, _ => []
  end.
Fixpoint pair_ops (mine ds : list element) : list (option (list op)) :=
  match ds with
  | [] => []
  | d :: ds' =>
      match el_key d with
      | Some k => match locate k mine with
                  | Some c => diff_to d c :: pair_ops mine ds'
                  | None => pair_ops mine ds'
                  end
      | None => pair_ops mine ds'
      end
  end.
Definition keyed_kids (mine theirs : list element) : option (list op) :=
  cat_ops [ cat_ops (pair_ops mine theirs);
            (let un := unpaired mine 0 theirs in cat_ops (map (keyed_insert theirs (length un)) un));
            Some (keyed_deletes mine theirs) ].
Definition plain_kids (r : N) (cs ds : list element) : option (list op) :=
  cat_ops [ Some (map (fun c => Op (id_str c) DeleteEl) (skipn (length ds) cs));
            cat_ops (zip_ops ds cs);
            Some (flat_map (fun d => create_from_scratch d (Some (dec r))) (skipn (length cs) ds)) ].

Lemma cat_nil_l l : cat_ops (Some [] :: l) = cat_ops l.
Proof. cbn. now destruct (cat_ops l). Qed.
Lemma cat_two x : cat_ops [x; Some []] = x.
Proof. destruct x; cbn; [now rewrite app_nil_r|reflexivity]. Qed.

Lemma diff_to_eq b a :
  diff_to b a = cat_ops [Some (diff_own a b);
    (if all_keyed a && all_keyed b then keyed_kids (el_children a) (el_children b)
     else plain_kids (el_id a) (el_children a) (el_children b));
    Some (diff_id a b)].
Proof.
  destruct b as [bi bn ba bl bc bt bk]. cbn [diff_to]. change (all_keyed (Element bi bn ba bl bc bt bk)) with (forallb is_keyed bc).
  cbn [el_children].
  assert (forall ds, (fix pairs (ds : list element) : list (option (list op)) :=
                 match ds with
                 | [] => []
                 | d :: ds' =>
                     match el_key d with
                     | Some k => match locate k (el_children a) with
                                 | Some c => diff_to d c :: pairs ds'
                                 | None => pairs ds'
                                 end
                     | None => pairs ds'
                     end
                 end) ds = pair_ops (el_children a) ds) as E1.
  { induction ds as [|d ds IH]; [reflexivity|]. cbn [pair_ops]. now rewrite IH. }
  assert (forall ds cs, (fix zip (ds cs : list element) : list (option (list op)) :=
                 match ds, cs with
                 | d :: ds', c :: cs' => diff_to d c :: zip ds' cs'
                 | _, _ => []
                 end) ds cs = zip_ops ds cs) as E2.
  { reflexivity. }
  rewrite E1, E2. clear E1 E2. destruct (all_keyed a && forallb is_keyed bc); [reflexivity|].
  f_equal. f_equal. f_equal. unfold plain_kids. set (cs := el_children a).
  destruct (Nat.eqb_spec (length cs) (length bc)) as [E|E].
  - rewrite <- E, skipn_all, E, skipn_all. cbn [map flat_map]. rewrite cat_nil_l. symmetry. apply cat_two.
  - destruct (Nat.ltb_spec (length bc) (length cs)) as [L|L].
    + rewrite (skipn_all2 bc) by lia. cbn [flat_map]. cbn [cat_ops]. destruct (cat_ops (zip_ops bc cs)); [|reflexivity]. reflexivity.
    + rewrite (skipn_all2 cs) by lia. cbn [map]. now rewrite cat_nil_l.
Qed.

Fixpoint created_list (ds cs : list element) : list N :=
  match ds, cs with
  | d :: ds', c :: cs' => created d c ++ created_list ds' cs'
  | _, [] => ids_of ds
  | [], _ => []
  end.
Lemma created_eq b a : created b a =
  if all_keyed a && all_keyed b then ids_of (el_children b) else created_list (el_children b) (el_children a).
Proof.
  destruct b as [bi bn ba bl bc bt bk]. cbn [created]. change (all_keyed (Element bi bn ba bl bc bt bk)) with (forallb is_keyed bc).
  cbn [el_children]. destruct (all_keyed a && forallb is_keyed bc); [reflexivity|].
  generalize (el_children a) as cs. induction bc as [|d ds IH]; intros [|c cs]; reflexivity.
Qed.
Lemma created_incl b : forall a i, In i (created b a) -> In i (ids_of (el_children b)).
Proof.
  induction b as [bi bn ba bl bc bt bk IH] using element_ind2. intros a i. rewrite created_eq. cbn [el_children].
  destruct (all_keyed a && _); [tauto|]. generalize (el_children a) as cs. induction IH as [|d ds Hd _ IHds]; intros [|c cs]; cbn [created_list]; auto.
  rewrite ids_of_cons, !in_app_iff. intros [H|H]; [left|right; now apply (IHds cs)]. apply Hd in H. destruct d; cbn. now right.
Qed.
Lemma created_incl_ids b a i : In i (created b a) -> In i (ids b).
Proof. intros H. apply created_incl in H. destruct b; cbn. now right. Qed.
Lemma created_list_skip ds cs i : In i (ids_of (skipn (length cs) ds)) -> In i (created_list ds cs).
Proof.
  revert cs. induction ds as [|d ds IH]; intros [|c cs]; cbn [skipn length created_list]; auto. intros H. apply in_or_app. right. now apply IH.
Qed.

(* ------------------------------------------------------------------ *)
Section Main.
Context (max : N).
Notation runs := (runs max).

Definition edits (a b : element) : Prop := exists os, diff_to b a = Some os /\
  forall x, view x a -> exists b', view b' b /\ runs (fun i => In i (ids a) \/ In i (created b a)) os x b'.

Definition edits_when (d : element) : Prop := forall c, safe c d -> proper max c -> proper max d -> edits c d.

Lemma forall2_firstn {A B} (R : A -> B -> Prop) n l1 l2 : Forall2 R l1 l2 -> Forall2 R (firstn n l1) (firstn n l2).
Proof. intros H. revert n. induction H; intros [|n]; cbn; constructor; auto. Qed.
Lemma forall2_skipn {A B} (R : A -> B -> Prop) n l1 l2 : Forall2 R l1 l2 -> Forall2 R (skipn n l1) (skipn n l2).
Proof. intros H. revert n. induction H; intros [|n]; cbn; auto; constructor; auto. Qed.
Lemma forall2_app_one {A B} (R : A -> B -> Prop) l1 l2 x y : Forall2 R l1 l2 -> R x y -> Forall2 R (l1 ++ [x]) (l2 ++ [y]).
Proof. intros H1 H2. apply Forall2_app; [exact H1|]. constructor; [exact H2|constructor]. Qed.

(** The edits of the children that are matched up by position. *)
Lemma zip_runs r done cs ds : kids_safe safe r done cs ds ->
  Forall edits_when ds -> Forall (proper max) cs -> Forall (proper max) ds ->
  exists os, cat_ops (zip_ops ds cs) = Some os /\
    forall (S : N -> Prop) done' xs n m l t k,
      Forall2 view done' done -> Forall2 view xs (firstn (length ds) cs) ->
      (forall i, In i (ids_of cs) \/ In i (created_list ds cs) -> S i) ->
      exists ys, Forall2 view ys (firstn (length cs) ds) /\
        runs S os (Element r n m l (done' ++ xs) t k) (Element r n m l (done' ++ ys) t k).
Proof.
  induction 1 as [done|done c cs|done c cs d ds Hcd Hav Hk IH|done d ds Hnd Hav Hk IH]; intros Hed Hpc Hpd.
  - exists []. split; [reflexivity|]. intros S done' xs n m l t k Vd Vx SS. cbn in Vx. inversion Vx; subst.
    exists []. split; constructor.
  - exists []. split; [reflexivity|]. intros S done' xs n m l t k Vd Vx SS. cbn in Vx. inversion Vx; subst.
    exists []. split; [destruct (length (c :: cs)); constructor|]. constructor.
  - inversion Hed as [|? ? E1 E2]; subst. inversion Hpc as [|? ? C1 C2]; subst. inversion Hpd as [|? ? D1 D2]; subst.
    destruct (E1 c Hcd C1 D1) as (os1 & Ho1 & R1). destruct (IH E2 C2 D2) as (os2 & Ho2 & R2).
    exists (os1 ++ os2). split. { cbn [zip_ops cat_ops]. now rewrite Ho1, Ho2. }
    intros S done' xs n m l t k Vd Vx SS. cbn [length firstn] in Vx |- *. inversion Vx as [|x ? xs' ? V1 V2]; subst.
    destruct (R1 x V1) as (y & Vy & Ry).
    destruct (R2 S (done' ++ [y]) xs' n m l t k) as (ys & Vys & Rys); auto.
    { now apply forall2_app_one. }
    { intros i Hi. apply SS. cbn [created_list]. rewrite ids_of_cons, !in_app_iff. tauto. }
    exists (y :: ys). split; [now constructor|]. eapply runs_app.
    + apply (runs_lift max (fun i => In i (ids c) \/ In i (created d c)) S os1 x y r n m l done' xs' t k Ry).
      * intros i Hi. destruct (Hav i) as [H1 H2]; [apply in_or_app; exact Hi|]. split; [exact H1|]. now rewrite (views_ids _ _ Vd).
      * intros i Hi. apply SS. cbn [created_list]. rewrite !ids_of_cons, !in_app_iff. tauto.
    + rewrite <- !app_assoc in Rys. exact Rys.
  - exists []. split; [reflexivity|]. intros S done' xs n m l t k Vd Vx SS. cbn [firstn length] in Vx. inversion Vx; subst.
    exists []. split; constructor.
Qed.

Lemma kids_safe_drop R r done cs ds : kids_safe R r done cs ds -> kids_safe R r (done ++ firstn (length cs) ds) [] (skipn (length cs) ds).
Proof.
  induction 1 as [done|done c cs|done c cs d ds Hcd Hav Hk IH|done d ds Hnd Hav Hk IH]; cbn [length firstn skipn].
  - constructor.
  - constructor.
  - rewrite <- app_assoc in IH. exact IH.
  - rewrite app_nil_r. now constructor.
Qed.
Lemma kids_safe_new R r done cs ds : kids_safe R r done cs ds -> cs = [] -> NoDup (ids_of ds) /\ avoids (ids_of ds) r done.
Proof.
  induction 1 as [done|done c cs|done c cs d ds Hcd Hav Hk IH|done d ds Hnd Hav Hk IH]; intros E; try discriminate.
  - split; [constructor|intros i []].
  - destruct (IH eq_refl) as [I1 I2]. rewrite ids_of_cons. split.
    + apply nodup_app_iff. split; [exact Hnd|]. split; [exact I1|]. intros i Hi Hi2. apply (I2 i Hi2). rewrite ids_of_app. apply in_or_app. right.
      cbn. now rewrite app_nil_r.
    + intros i Hi. apply in_app_or in Hi as [Hi|Hi]; [now apply Hav|]. destruct (I2 i Hi) as [H1 H2]. split; [exact H1|].
      intros H. apply H2. rewrite ids_of_app. apply in_or_app. now left.
Qed.

Lemma forall_skipn {A} (P : A -> Prop) n l : Forall P l -> Forall P (skipn n l).
Proof. intros H. revert n. induction H; intros [|n]; cbn; auto. Qed.
Lemma in_ids_skipn i n l : In i (ids_of (skipn n l)) -> In i (ids_of l).
Proof. intros H. rewrite <- (firstn_skipn n l), ids_of_app. apply in_or_app. now right. Qed.
Lemma in_ids_firstn i n l : In i (ids_of (firstn n l)) -> In i (ids_of l).
Proof. intros H. rewrite <- (firstn_skipn n l), ids_of_app. apply in_or_app. now left. Qed.

(** All children, by position. *)
Lemma plain_runs r cs ds : (r <= max)%N -> kids_safe safe r [] cs ds ->
  Forall (fun c => avoids [el_id c] r (firstn (length ds) cs)) (skipn (length ds) cs) ->
  Forall edits_when ds -> Forall (proper max) cs -> Forall (proper max) ds ->
  exists os, plain_kids r cs ds = Some os /\
    forall (S : N -> Prop) xs n m l t k,
      Forall2 view xs cs -> S r -> (forall i, In i (ids_of cs) \/ In i (created_list ds cs) -> S i) ->
      exists ys, Forall2 view ys ds /\ runs S os (Element r n m l xs t k) (Element r n m l ys t k).
Proof.
  intros Hr Hk Hdel Hed Hpc Hpd.
  destruct (zip_runs r [] cs ds Hk Hed Hpc Hpd) as (zos & Ez & Hz).
  exists (map (fun c => Op (id_str c) DeleteEl) (skipn (length ds) cs) ++ zos ++ flat_map (fun d => create_from_scratch d (Some (dec r))) (skipn (length cs) ds)).
  split. { unfold plain_kids. cbn [cat_ops]. rewrite Ez. now rewrite app_nil_r. }
  intros S xs n m l t k Vx Sr SS.
  (* deletions *)
  assert (runs S (map (fun c => Op (id_str c) DeleteEl) (skipn (length ds) cs)) (Element r n m l xs t k) (Element r n m l (firstn (length ds) xs) t k)) as R1.
  { rewrite <- (firstn_skipn (length ds) xs) at 1. apply deletes_runs; auto.
    - now apply forall2_skipn.
    - pose proof (forall_skipn _ (length ds) _ Hpc) as Hp. rewrite Forall_forall in Hp, Hdel |- *. intros c Hc. split; [apply (every_root _ _ (Hp c Hc))|].
      destruct (Hdel c Hc (el_id c)) as [H1 H2]; [now left|]. split; [exact H1|].
      now rewrite (views_ids _ _ (forall2_firstn _ (length ds) _ _ Vx)).
    - intros i Hi. apply SS. left. now apply in_ids_skipn in Hi. }
  (* pairs *)
  destruct (Hz S [] (firstn (length ds) xs) n m l t k) as (ys & Vy & R2); auto.
  { now apply forall2_firstn. }
  (* creations *)
  apply kids_safe_drop in Hk. cbn [app] in Hk. apply kids_safe_new in Hk as [N1 N2]; [|reflexivity].
  destruct (creates_list max (skipn (length cs) ds)) with (S := S) (r := r) (n := n) (a := m) (l := l) (L := ys) (t := t) (k := k) as (zs & Vz & R3); auto.
  { apply Forall_forall. intros d _. apply create_runs. }
  { now apply forall_skipn. }
  { intros i Hi. destruct (N2 i Hi) as [H1 H2]. split; [exact H1|]. now rewrite (views_ids _ _ Vy). }
  { intros i Hi. apply SS. right. now apply created_list_skip. }
  exists (ys ++ zs). split.
  { rewrite <- (firstn_skipn (length cs) ds). now apply Forall2_app. }
  eapply runs_app; [exact R1|]. eapply runs_app; [exact R2|exact R3].
Qed.

(* ------------------------------------------------------------------ *)
(** ** Keyed children *)

(** [mixed done' cs ds]: what [done'] is after the pairs have been edited: new versions and doomed old
    children. *)
Inductive mixed : list element -> list element -> list element -> Prop :=
| mx_nil : mixed [] [] []
| mx_pair c d cs ds M : el_key c = el_key d -> mixed M cs ds -> mixed (d :: M) (c :: cs) (d :: ds)
| mx_drop c cs ds M : ~ In (el_key c) (map el_key ds) -> mixed M cs ds -> mixed (c :: M) (c :: cs) ds.

Lemma locate_here mine1 c mine2 key : el_key c = Some key -> NoDup (map el_key (mine1 ++ c :: mine2)) -> locate key (mine1 ++ c :: mine2) = Some c.
Proof.
  intros Hc Hnd. unfold locate. induction mine1 as [|x mine1 IH]; cbn [app find].
  - unfold key_is at 1. now rewrite Hc, str_eqb_refl.
  - cbn [app map] in Hnd. inversion Hnd as [|? ? Hn Hd]; subst. rewrite (IH Hd).
    unfold key_is at 1. destruct (el_key x) as [k'|] eqn:Ek; [|reflexivity]. destruct (str_eqb k' key) eqn:E; [|reflexivity].
    apply str_eqb_eq in E as ->. exfalso. apply Hn. rewrite map_app, in_app_iff. right. left. congruence.
Qed.
Lemma locate_none key l : ~ In (Some key) (map el_key l) <-> locate key l = None.
Proof.
  unfold locate. induction l as [|x l IH]; cbn [map find]; [split; [reflexivity|intros _ []]|].
  unfold key_is at 1. destruct (el_key x) as [k'|] eqn:Ek.
  - destruct (str_eqb k' key) eqn:E.
    + apply str_eqb_eq in E as ->. split; [intros H; exfalso; apply H; now left|discriminate].
    + apply str_eqb_neq in E. rewrite <- IH. split; [intros H H2; apply H; now right|intros H [H2|H2]; [congruence|tauto]].
  - rewrite <- IH. split; [intros H H2; apply H; now right|intros H [H2|H2]; [congruence|tauto]].
Qed.

Lemma keyed_pairs mine r done cs ds : keyed_safe safe r done cs ds ->
  (exists mine1, mine = mine1 ++ cs) -> NoDup (map el_key mine) -> Forall (fun c => is_keyed c = true) ds ->
  Forall edits_when ds -> Forall (proper max) cs -> Forall (proper max) ds ->
  (exists M, mixed M cs ds /\
  exists os, cat_ops (pair_ops mine ds) = Some os /\ (forall i, unpaired mine i ds = []) /\
    forall (S : N -> Prop) done' xs n m l t k,
      Forall2 view done' done -> Forall2 view xs cs ->
      (forall i, In i (ids_of cs) \/ In i (ids_of ds) -> S i) ->
      exists ys, Forall2 view ys M /\
        runs S os (Element r n m l (done' ++ xs) t k) (Element r n m l (done' ++ ys) t k)).
Proof.
  induction 1 as [done|done c cs d ds Hkey Hcd Hav Hk IH|done c cs ds Hav Hnk Hk IH]; intros (mine1 & Em) Hnd Hkd Hed Hpc Hpd.
  - exists []. split; [constructor|]. exists []. split; [reflexivity|]. split; [reflexivity|].
    intros S done' xs n m l t k Vd Vx SS. inversion Vx; subst.
    exists []. split; constructor.
  - inversion Hed as [|? ? E1 E2]; subst. inversion Hpc as [|? ? C1 C2]; subst. inversion Hpd as [|? ? D1 D2]; subst. inversion Hkd as [|? ? K1 K2]; subst.
    destruct (E1 c Hcd C1 D1) as (os1 & Ho1 & R1).
    destruct IH as (M & HM & os2 & Ho2 & Hu & R2); auto. { exists (mine1 ++ [c]). now rewrite <- app_assoc. }
    exists (d :: M). split; [now constructor|]. exists (os1 ++ os2).
    unfold is_keyed in K1. destruct (el_key d) as [key|] eqn:Ekd; [|discriminate].
    pose proof (locate_here mine1 c cs key Hkey Hnd) as Hl.
    split. { cbn [pair_ops]. rewrite Ekd, Hl. cbn [cat_ops]. now rewrite Ho1, Ho2. }
    split. { intros i. cbn [unpaired]. rewrite Ekd, Hl. apply Hu. }
    intros S done' xs n m l t k Vd Vx SS. inversion Vx as [|x ? xs' ? V1 V2]; subst.
    destruct (R1 x V1) as (y & Vy & Ry).
    destruct (R2 S (done' ++ [y]) xs' n m l t k) as (ys & Vys & Rys); auto.
    { now apply forall2_app_one. }
    { intros i Hi. apply SS. rewrite !ids_of_cons, !in_app_iff. tauto. }
    exists (y :: ys). split; [now constructor|]. eapply runs_app.
    + apply (runs_lift max (fun i => In i (ids c) \/ In i (created d c)) S os1 x y r n m l done' xs' t k Ry).
      * intros i Hi. destruct (Hav i) as [H1 H2]; [apply in_or_app; exact Hi|]. split; [exact H1|]. now rewrite (views_ids _ _ Vd).
      * intros i Hi. apply SS. rewrite !ids_of_cons, !in_app_iff. destruct Hi as [Hi|Hi]; [tauto|]. apply created_incl_ids in Hi. tauto.
    + rewrite <- !app_assoc in Rys. exact Rys.
  - inversion Hpc as [|? ? C1 C2]; subst.
    destruct IH as (M & HM & os2 & Ho2 & Hu & R2); auto. { exists (mine1 ++ [c]). now rewrite <- app_assoc. }
    exists (c :: M). split; [now constructor|]. exists os2. split; [exact Ho2|]. split; [exact Hu|].
    intros S done' xs n m l t k Vd Vx SS. inversion Vx as [|x ? xs' ? V1 V2]; subst.
    destruct (R2 S (done' ++ [x]) xs' n m l t k) as (ys & Vys & Rys); auto.
    { now apply forall2_app_one. }
    { intros i Hi. apply SS. rewrite !ids_of_cons, !in_app_iff. tauto. }
    exists (x :: ys). split; [now constructor|]. rewrite <- !app_assoc in Rys. exact Rys.
Qed.

(** Deleting the doomed children from the mixed list. *)
Lemma keyed_drops all r done cs ds : keyed_safe safe r done cs ds ->
  forall M mine1, mixed M cs ds -> Forall (fun c => is_keyed c = true) cs ->
  NoDup (map el_key (mine1 ++ cs)) -> (exists ds1, all = ds1 ++ ds /\ forall k, In k (map el_key ds1) -> In k (map el_key mine1)) ->
  Forall (proper max) cs -> (r <= max)%N ->
  forall (S : N -> Prop) done1 done' xs n m l t k,
    (forall i, In i (ids_of done1) -> In i (ids_of done)) ->
    Forall2 view done' done1 -> Forall2 view xs M -> S r -> (forall i, In i (ids_of cs) -> S i) ->
    exists ys, Forall2 view ys ds /\
      runs S (keyed_deletes cs all) (Element r n m l (done' ++ xs) t k) (Element r n m l (done' ++ ys) t k).
Proof.
  induction 1 as [done|done c cs d ds Hkey Hcd Hav Hk IH|done c cs ds Hav Hnk Hk IH];
    intros M mine1 HM Hkc Hnd (ds1 & Ea & Hsub) Hp Hr S done1 done' xs n m l t k Hincl Vd Vx Sr SS.
  - inversion HM; subst. inversion Vx; subst. exists []. split; constructor.
  - inversion Hkc as [|? ? K1 K2]; subst. inversion Hp as [|? ? P1 P2]; subst. unfold is_keyed in K1. destruct (el_key c) as [key|] eqn:Ek; [|discriminate].
    inversion HM as [|? ? ? ? M' Hk2 HM' |? ? ? M' Hn HM']; subst.
    2: { exfalso. apply Hn. left. congruence. }
    inversion Vx as [|x ? xs' ? V1 V2]; subst.
    destruct (IH M' (mine1 ++ [c]) HM' K2) with (S := S) (done1 := done1 ++ [d]) (done' := done' ++ [x]) (xs := xs') (n := n) (m := m) (l := l) (t := t) (k := k) as (ys & Vy & Ry); auto.
    { now rewrite <- app_assoc. }
    { exists (ds1 ++ [d]). split; [now rewrite <- app_assoc|]. intros q. rewrite !map_app, !in_app_iff. cbn [map]. intros [H|[H|[]]]; [left; auto|right; left; congruence]. }
    { intros i. rewrite !ids_of_app, !in_app_iff. intros [H|H]; auto. }
    { now apply forall2_app_one. }
    { intros i Hi. apply SS. rewrite !ids_of_cons, !in_app_iff. tauto. }
    exists (x :: ys). split; [now constructor|].
    unfold keyed_deletes. cbn [flat_map]. rewrite Ek.
    destruct (locate key (ds1 ++ d :: ds)) eqn:El.
    + cbn [app]. rewrite <- !app_assoc in Ry. exact Ry.
    + exfalso. apply locate_none in El. apply El. rewrite map_app, in_app_iff. right. left. congruence.
  - inversion Hkc as [|? ? K1 K2]; subst. inversion Hp as [|? ? P1 P2]; subst. unfold is_keyed in K1. destruct (el_key c) as [key|] eqn:Ek; [|discriminate].
    inversion HM as [|? d ? ds' M' Hk2 HM' |? ? ? M' Hn HM']; subst.
    { exfalso. apply Hnk. left. congruence. }
    inversion Vx as [|x ? xs' ? V1 V2]; subst.
    destruct (IH M' (mine1 ++ [c]) HM' K2) with (S := S) (done1 := done1) (done' := done') (xs := xs') (n := n) (m := m) (l := l) (t := t) (k := k) as (ys & Vy & Ry); auto.
    { now rewrite <- app_assoc. }
    { exists ds1. split; [reflexivity|]. intros q Hq. rewrite map_app, in_app_iff. left. auto. }
    { intros i Hi. rewrite ids_of_app. apply in_or_app. left. auto. }
    { intros i Hi. apply SS. rewrite ids_of_cons, in_app_iff. tauto. }
    exists ys. split; [exact Vy|].
    unfold keyed_deletes. cbn [flat_map]. rewrite Ek.
    assert (locate key (ds1 ++ ds) = None) as ->.
    { apply locate_none. rewrite map_app, in_app_iff. intros [H|H]; [|tauto]. apply Hsub in H.
      rewrite map_app in Hnd. apply nodup_app_iff in Hnd as (_ & _ & Hnd). apply (Hnd _ H). left. exact Ek. }
    eapply runs_app; [|exact Ry].
    pose proof (view_root_id _ _ V1) as Ei. pose proof (every_root _ _ P1) as [Hc _]. destruct (Hav (el_id c)) as [A1 A2]; [now left|].
    assert (S (el_id c)) as Sc by (apply SS; rewrite ids_of_cons; apply in_or_app; left; apply in_ids_root).
    unfold id_str. rewrite <- Ei in *. change (dec (el_id x)) with (id_str x). apply delete_runs; auto.
    rewrite (views_ids _ _ Vd). auto.
Qed.

Lemma keyed_runs r cs ds : (r <= max)%N -> keyed_safe safe r [] cs ds ->
  forallb is_keyed cs = true -> forallb is_keyed ds = true -> NoDup (map el_key cs) ->
  Forall edits_when ds -> Forall (proper max) cs -> Forall (proper max) ds ->
  exists os, keyed_kids cs ds = Some os /\
    forall (S : N -> Prop) xs n m l t k,
      Forall2 view xs cs -> S r -> (forall i, In i (ids_of cs) \/ In i (ids_of ds) -> S i) ->
      exists ys, Forall2 view ys ds /\ runs S os (Element r n m l xs t k) (Element r n m l ys t k).
Proof.
  intros Hr Hk K1 K2 Hnd Hed Hpc Hpd. rewrite forallb_forall in K1, K2. rewrite <- Forall_forall in K1, K2.
  destruct (keyed_pairs cs r [] cs ds Hk) as (M & HM & os & Ho & Hu & R); auto. { now exists []. }
  exists (os ++ keyed_deletes cs ds). split.
  { unfold keyed_kids. rewrite (Hu 0). cbn [length map cat_ops]. rewrite Ho. cbn [app]. now rewrite app_nil_r. }
  intros S xs n m l t k Vx Sr SS.
  destruct (R S [] xs n m l t k) as (ys & Vy & R1); auto.
  destruct (keyed_drops ds r [] cs ds Hk M [] HM K1) with (S := S) (done1 := @nil element) (done' := @nil element) (xs := ys) (n := n) (m := m) (l := l) (t := t) (k := k) as (zs & Vz & R2); auto.
  { exists []. split; [reflexivity|]. intros ? []. }
  exists zs. split; [exact Vz|]. eapply runs_app; [exact R1|exact R2].
Qed.

(* ------------------------------------------------------------------ *)
(** ** The whole tree *)

Theorem safe_edits b : edits_when b.
Proof.
  induction b as [bi bn ba bl bc bt bk IH] using element_ind2. set (b := Element bi bn ba bl bc bt bk) in *.
  intros a Hs Pa Pb. pose proof (every_root _ _ Pa) as [Ia Wa]. pose proof (every_root _ _ Pb) as [Ib Wb].
  pose proof (every_children _ _ Pa) as Ca. pose proof (every_children _ _ Pb) as Cb. 
  assert ((el_id a = el_id b \/ (el_name a = el_name b /\ el_listeners a = el_listeners b)) /\
    exists kos, (if all_keyed a && all_keyed b then keyed_kids (el_children a) (el_children b)
     else plain_kids (el_id a) (el_children a) (el_children b)) = Some kos /\
    forall (S : N -> Prop) xs n m l t k,
      Forall2 view xs (el_children a) -> S (el_id a) -> (forall i, In i (ids_of (el_children a)) \/ In i (created b a) -> S i) ->
      exists ys, Forall2 view ys (el_children b) /\ runs S kos (Element (el_id a) n m l xs t k) (Element (el_id a) n m l ys t k)) as (Hid & kos & Hk & Rk).
  { unfold safe in Hs. inversion Hs as [? ? _ Hid Hkey Hdel Hkids|? ? _ Hid Ka Kb Na Nb Hkids]; subst; fold safe in Hkids; (split; [exact Hid|]).
    - destruct (all_keyed a && all_keyed b) eqn:E.
      + destruct (Hkey eq_refl) as [E1 E2]. rewrite E1, E2 in *. exists []. split; [reflexivity|]. intros S xs n m l t k Vx Sr SS. inversion Vx; subst.
        exists []. split; constructor.
      + rewrite created_eq, E. now apply plain_runs.
    - rewrite created_eq, Ka, Kb. cbn [andb]. now apply keyed_runs. }
  destruct (diff_own_spec a b Wa Wb Hid) as (l & El & Hl).
  exists (diff_own a b ++ kos ++ diff_id a b). split.
  { rewrite diff_to_eq, Hk. cbn [cat_ops]. now rewrite app_nil_r. }
  intros x Vx. set (S := fun i => In i (ids a) \/ In i (created b a)).
  destruct a as [ai an aa al ac at_ ak]. inversion Vx as [? ? xa ? ? xs ? ? xk ? Hxa Hxs]; subst.
  cbn [el_id el_name el_attrs el_listeners el_children el_text] in *.
  destruct (Hl ai xa xs xk Hxa) as (m' & Ho & Hm').
  assert (S ai) as Sr by (left; now left).
  destruct (Rk S xs bn m' bl bt xk Hxs Sr) as (ys & Vy & R2).
  { intros i [Hi|Hi]; [left; now right|now right]. }
  exists (Element bi bn m' bl ys bt xk). split. { now constructor. }
  eapply runs_app.
  { rewrite El. apply runs_own with (e' := Element ai bn m' bl xs bt xk); auto. }
  eapply runs_app; [exact R2|].
  unfold diff_id. change (el_id b) with bi. cbn [el_id]. destruct (N.eqb_spec ai bi) as [->|Hne].
  - constructor.
  - apply (runs_cons max S _ _ _ (Element bi bn m' bl ys bt xk)).
    + intros j. unfold looks, id_str. cbn [op_instr op_id el_id]. rewrite parse_dec by assumption. intros [= <-]. exact Sr.
    + unfold apply_op, id_str. cbn [op_id op_instr el_id]. rewrite !parse_dec by assumption. now rewrite mutate_root.
    + discriminate.
    + constructor.
Qed.

End Main.
