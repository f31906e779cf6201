(** Pages that grow before their end: the first element that is pushed back keeps its old number. *)
From Verif Require Import Base HMap Num DomModel DomSpec DomProofs DomProofs2 DomProofs3 DomProofs4 DomKeyed DomLocal.
From Coq Require Import Lia.
Local Open Scope N_scope.

(** The ids met on the way down a path (at every level the node and the elder siblings of the next one), and the id at
    its end. *)
Fixpoint way (p : list nat) (e : element) : option (list N * N) :=
  match p with
  | [] => Some ([], el_id e)
  | n :: p' => match nth_error (el_children e) n with
               | Some c => match way p' c with
                           | Some (l, z) => Some (el_id e :: map el_id (firstn n (el_children e)) ++ l, z)
                           | None => None
                           end
               | None => None
               end
  end.

Lemma way_head p e M z : way p e = Some (M, z) -> In (el_id e) (z :: M).
Proof.
  destruct p; cbn [way]; [intros [= <- <-]; now left|]. destruct (nth_error _ _); [|discriminate]. destruct (way _ _) as [[]|]; [|discriminate]. intros [= <- <-]. right. now left.
Qed.
Lemma way_cons n p e M z : way (n :: p) e = Some (M, z) <->
  exists L1 c L2 M', el_children e = L1 ++ c :: L2 /\ length L1 = n /\ way p c = Some (M', z) /\ M = el_id e :: map el_id L1 ++ M'.
Proof.
  cbn [way]. split.
  - destruct (nth_error (el_children e) n) as [c|] eqn:E; [|discriminate]. destruct (way p c) as [[l y]|] eqn:E2; [|discriminate]. intros [= <- <-].
    apply nth_error_split in E as (L1 & L2 & E & Hl). exists L1, c, L2, l. rewrite E. split; [reflexivity|]. split; [exact Hl|]. split; [exact E2|].
    f_equal. f_equal. subst n. now rewrite firstn_app, firstn_all, Nat.sub_diag, firstn_O, app_nil_r.
  - intros (L1 & c & L2 & M' & E & <- & E2 & ->). rewrite E, nth_error_app2, Nat.sub_diag by lia. cbn [nth_error]. rewrite E2.
    now rewrite firstn_app, firstn_all, Nat.sub_diag, firstn_O, app_nil_r.
Qed.
Lemma way_at p : forall e M z, way p e = Some (M, z) -> exists c, at_path p e = Some c /\ el_id c = z.
Proof.
  induction p as [|n p IH]; intros e M z H; [injection H as <- <-; cbn; eauto|]. apply way_cons in H as (L1 & c & L2 & M' & E & <- & H & ->).
  destruct (IH _ _ _ H) as (x & H1 & H2). exists x. cbn [at_path]. rewrite E, nth_error_app2, Nat.sub_diag by lia. cbn [nth_error]. auto.
Qed.
Lemma way_end p : forall e M z, way p e = Some (M, z) -> In z (ids e).
Proof. intros e M z H. destruct (way_at _ _ _ _ H) as (c & H1 & <-). eapply at_path_ids; [exact H1|apply in_ids_root]. Qed.

(** *** What a search-and-mutate does to a path *)
Lemma find_list_split i f l : forall l', find_list i f l = Some (Some l') ->
  exists L1 c c' L2, l = L1 ++ c :: L2 /\ l' = L1 ++ c' :: L2 /\ ~ In i (ids_of L1) /\ find_mutate i f c = Some (Some c').
Proof.
  induction l as [|x l IH]; cbn [find_list]; [discriminate|]. intros l'. destruct (find_mutate i f x) as [[x'|]|] eqn:E; [|discriminate|].
  - intros [= <-]. exists [], x, x', l. repeat split; auto.
  - destruct (find_list i f l) as [[l2|]|]; try discriminate. intros [= <-]. destruct (IH _ eq_refl) as (L1 & c & c' & L2 & -> & -> & H & E2).
    exists (x :: L1), c, c', L2. repeat split; auto. rewrite ids_of_cons, in_app_iff. apply find_none in E. tauto.
Qed.
Lemma mutate_cases i f e e' : mutate i f e = Some e' ->
  el_id e = i /\ f e = Some e' \/
  el_id e <> i /\ exists L1 c c' L2, el_children e = L1 ++ c :: L2 /\ e' = with_children (L1 ++ c' :: L2) e /\ ~ In i (ids_of L1) /\ mutate i f c = Some c'.
Proof.
  destruct e as [r n a l cs t k]. unfold mutate. rewrite find_mutate_eq. cbn [el_id el_children]. destruct (N.eqb_spec i r) as [->|Hr]; [auto|].
  destruct (find_list i f cs) as [[cs'|]|] eqn:E; try discriminate. intros [= <-]. right. split; [congruence|].
  apply find_list_split in E as (L1 & c & c' & L2 & -> & -> & H & E). exists L1, c, c', L2. rewrite E. auto.
Qed.
Lemma app_cases {A} (L1 : list A) c L2 : forall P1 d P2, L1 ++ c :: L2 = P1 ++ d :: P2 ->
  (exists Q, P1 = L1 ++ c :: Q /\ L2 = Q ++ d :: P2) \/ (L1 = P1 /\ c = d /\ L2 = P2) \/ (exists Q, L1 = P1 ++ d :: Q /\ P2 = Q ++ c :: L2).
Proof.
  induction L1 as [|x L1 IH]; intros [|y P1] d P2; cbn [app]; intros H; injection H; clear H; intros E ->.
  - auto.
  - left. exists P1. auto.
  - right. right. exists L1. auto.
  - destruct (IH P1 d P2 E) as [(Q & -> & ->)|[(-> & -> & ->)|(Q & -> & ->)]]; eauto 6.
Qed.

(** [f] leaves the paths that only meet ids of [L] alone: then so does searching and mutating. *)
Lemma mutate_path (L : list N) i f :
  (forall x y q M z, el_id x = i -> f x = Some y -> way q x = Some (M, z) -> incl (z :: M) L -> way q y = Some (M, z)) ->
  forall p e e' M z, mutate i f e = Some e' -> way p e = Some (M, z) -> incl (z :: M) L -> way p e' = Some (M, z).
Proof.
  intros Hf. induction p as [|n p IH]; intros e e' M z Hm Hp Hi; apply mutate_cases in Hm as [[E Hm]|(Hne & L1 & c & c' & L2 & E & -> & Hn & Hm)]; eauto.
  - now destruct e.
  - apply way_cons in Hp as (P1 & d & P2 & M' & E' & Hl & Hp & ->). rewrite E in E'. apply app_cases in E' as [(Q & -> & ->)|[(-> & -> & ->)|(Q & -> & ->)]].
    + apply way_cons. exists (L1 ++ c' :: Q), d, P2, M'. destruct e as [e1 e2 e3 e4 e5 e6 e7]; cbn [with_children el_children el_id]. split; [now rewrite <- app_assoc|].
      split; [rewrite <- Hl; now rewrite !app_length|]. split; [exact Hp|]. f_equal. rewrite !map_app. cbn [map]. f_equal. f_equal. f_equal.
      assert (way [] c' = Some ([], el_id c)) as H; [|cbn in H; congruence].
      apply mutate_cases in Hm as [[Ec Hm]|(_ & ? & ? & ? & ? & _ & -> & _)]; [|now destruct c].
      apply (Hf c c' [] [] (el_id c) Ec Hm eq_refl). intros x [<-|[]]. apply Hi. right. right. apply in_app_iff. left. rewrite !map_app. cbn [map]. rewrite in_app_iff. right. now left.
    + apply way_cons. exists P1, c', P2, M'. destruct e as [e1 e2 e3 e4 e5 e6 e7]; cbn [with_children el_children el_id]. split; [reflexivity|]. split; [exact Hl|]. split; [|reflexivity].
      apply (IH d c'); auto. intros x Hx. apply Hi. destruct Hx as [->|Hx]; [now left|right; right; apply in_app_iff; auto].
    + apply way_cons. exists P1, d, (Q ++ c' :: L2), M'. destruct e as [e1 e2 e3 e4 e5 e6 e7]; cbn [with_children el_children el_id]. split; [now rewrite <- app_assoc|]. auto.
Qed.

(** Changes of a node that add children at the end at most. *)
Lemma appends_path f : (forall x y, f x = Some y -> el_id y = el_id x /\ exists ext, el_children y = el_children x ++ ext) ->
  forall x y q M z, f x = Some y -> way q x = Some (M, z) -> way q y = Some (M, z).
Proof.
  intros H x y q M z Hf Hp. destruct (H x y Hf) as [E (ext & Ec)]. destruct q as [|n q]; [cbn [way] in *; now rewrite E|].
  apply way_cons in Hp as (P1 & d & P2 & M' & E' & Hl & Hp & ->). apply way_cons. exists P1, d, (P2 ++ ext), M'. rewrite Ec, E', E, <- app_assoc. auto.
Qed.

(** Operations that can only renumber or delete nodes with ids above [k]. *)
Definition aims (P : N -> Prop) (o : op) : Prop :=
  match op_instr o with
  | InsertChild _ | InsertAfter _ | InsertBefore _ | SetInnerHtml _ _ => False
  | SetId _ | DeleteEl => exists i, op_id o = dec i /\ P i
  | _ => True
  end.
Definition gentle (k : N) : op -> Prop := aims (fun i => k < i).
Lemma position_split p l : forall n, position p l = Some n -> exists l1 c l2, l = l1 ++ c :: l2 /\ length l1 = n /\ p c = true.
Proof.
  induction l as [|x l IH]; cbn [position]; [discriminate|]. intros n. destruct (p x) eqn:E; [intros [= <-]; exists [], x, l; auto|].
  destruct (position p l) as [m|]; [|discriminate]. intros [= <-]. destruct (IH m eq_refl) as (l1 & c & l2 & -> & <- & H). exists (x :: l1), c, l2. auto.
Qed.
Lemma parse_dec_only max i j : parse_uint max (dec j) = Some i -> i = j.
Proof.
  intros H. destruct (N.le_gt_cases j max) as [Hj|Hj]; [rewrite parse_dec in H by exact Hj; congruence|].
  apply parse_uint_spec in H as (ds & Hds & Hne & Hd & -> & Hv). destruct Hds as [<-|E]; [apply dec_value|].
  pose proof (dec_digits j) as D. rewrite E in D. inversion D as [|? ? D1]. exfalso. revert D1. vm_compute. intros [D1 _]. now apply D1.
Qed.

Section Max.
Context (max : N).
Lemma gentle_path k o e e' p M z : gentle k o -> apply_op max o e = Some e' -> way p e = Some (M, z) -> Forall (fun i => i <= k) (z :: M) -> way p e' = Some (M, z).
Proof.
  intros Hg Ha Hp Hk. unfold gentle, aims in Hg. unfold apply_op in Ha. destruct (parse_uint max (op_id o)) as [i|] eqn:Ei; [|discriminate].
  assert (forall f, (forall x y, f x = Some y -> el_id y = el_id x /\ exists ext, el_children y = el_children x ++ ext) -> forall j, mutate j f e = Some e' -> way p e' = Some (M, z)) as A.
  { intros f Hf j Hm. apply (mutate_path (z :: M) j f) with (p := p) (e := e) (M := M); auto; [|apply incl_refl]. intros x y q M' z' _ Hfx Hq _. now apply (appends_path f Hf x y). }
  assert (forall j, op_id o = dec j -> i = j) as Hij by (intros j E; rewrite E in Ei; now apply parse_dec_only in Ei).
  destruct (op_instr o); try contradiction;
    try (apply (A _) in Ha; [exact Ha|]; intros x y [= <-]; destruct x; cbn; split; [reflexivity|]; exists []; now rewrite app_nil_r).
  - destruct Hg as (j & Ej & Hj). apply Hij in Ej as <-. destruct (parse_uint max value) as [v|]; [|discriminate].
    apply (mutate_path (z :: M) i (fun x => Some (with_id v x))) with (p := p) (e := e) (M := M); auto; [|apply incl_refl].
    intros x y q M' z' Ex _ Hq Hincl. apply way_head in Hq. apply Hincl in Hq. rewrite Forall_forall in Hk. apply Hk in Hq. lia.
  - destruct parent_id as [q|]; [|discriminate]. destruct (parse_uint max q) as [j|]; [|discriminate].
    apply (A _) in Ha; [exact Ha|]. intros x y [= <-]. destruct x; cbn. eauto.
  - destruct Hg as (j & Ej & Hj). apply Hij in Ej as <-. destruct (find_parent_id e i) as [r|]; [|discriminate].
    eapply (mutate_path (z :: M) r) with (p := p) (e := e) (M := M); [|exact Ha|exact Hp|apply incl_refl].
    intros x y q M' z' _ Hx Hq Hincl. cbn beta in Hx. destruct (position _ _) as [n|] eqn:En; [|discriminate]. injection Hx as <-.
    apply position_split in En as (l1 & c & l2 & Ec & Hl & Hc). apply N.eqb_eq in Hc. destruct q as [|m q]; [now destruct x|].
    apply way_cons in Hq as (P1 & d & P2 & M0 & E' & Hm & Hq & ->). rewrite Forall_forall in Hk.
    assert (forall y, In y (map el_id P1 ++ z' :: M0) -> y <= k) as Hz.
    { intros y Hy. apply Hk, Hincl. apply in_app_iff in Hy as [Hy|[<-|Hy]]; [right; right; apply in_app_iff; auto|now left|right; right; apply in_app_iff; auto]. }
    unfold remove_at. rewrite Ec in E' |- *. destruct (app_cases _ _ _ _ _ _ E') as [(Q & -> & ->)|[(-> & -> & ->)|(Q & -> & ->)]].
    + exfalso. assert (i <= k); [|lia]. apply Hz. rewrite map_app. cbn [map]. rewrite !in_app_iff. cbn [In]. auto.
    + exfalso. assert (i <= k); [|lia]. apply Hz. rewrite in_app_iff. right. rewrite <- Hc. eapply way_head. exact Hq.
    + apply way_cons. exists P1, d, (Q ++ l2), M0. destruct x as [x1 x2 x3 x4 x5 x6 x7]; cbn [with_children el_children el_id] in *. split; [|auto].
      rewrite <- Hl, firstn_app, Nat.sub_diag, firstn_O, app_nil_r, firstn_all. rewrite skipn_app. rewrite skipn_all2 by lia. cbn [app].
      replace (S (length (P1 ++ d :: Q)) - length (P1 ++ d :: Q))%nat with 1%nat by lia. cbn [skipn]. now rewrite <- app_assoc.
Qed.
Lemma gentle_paths k os p M z : Forall (gentle k) os -> forall e e', apply max os e = Some e' -> way p e = Some (M, z) -> Forall (fun i => i <= k) (z :: M) -> way p e' = Some (M, z).
Proof.
  induction 1 as [|o os Ho Hos IH]; intros e e'; cbn [apply]; [congruence|]. destruct (apply_op max o e) as [e1|] eqn:E; [|discriminate]. intros Ha Hp HM.
  apply (IH e1 e' Ha); [|exact HM]. eapply gentle_path; eauto.
Qed.

(** Paths to the left of another. *)
Inductive leftof : list nat -> list nat -> Prop :=
| left_here n m p q : (n < m)%nat -> leftof (n :: p) (m :: q)
| left_below n p q : leftof p q -> leftof (n :: p) (n :: q).
(** Renumbering [k] hits the node on the left. *)
Lemma rename_left k j p q : leftof p q -> forall e e' M L z, way p e = Some (M, k) -> way q e = Some (L, z) -> ~ In k L ->
  mutate k (fun x => Some (with_id j x)) e = Some e' -> way q e' = Some (L, z).
Proof.
  assert (forall n m B1 y B2 A1 x A2 L1 (c : element) L2, (n < m)%nat -> L1 ++ c :: L2 = A1 ++ x :: A2 -> length A1 = n -> L1 ++ c :: L2 = B1 ++ y :: B2 -> length B1 = m ->
    In k (ids x) -> ~ In k (ids_of L1) -> exists Q, B1 = L1 ++ c :: Q /\ L2 = Q ++ y :: B2) as Hleft.
  { intros n m B1 y B2 A1 x A2 L1 c L2 Hnm Ea Ha Eb Hb Hk Hn. destruct (app_cases _ _ _ _ _ _ Eb) as [H|[(-> & -> & ->)|(Q & -> & ->)]]; [exact H| |]; exfalso; apply Hn; unfold ids_of; apply in_flat_map;
    exists x; (split; [|exact Hk]); apply nth_error_In with (n := n).
    - rewrite <- (nth_error_app1 B1 (y :: B2)) by lia. rewrite Ea, nth_error_app2 by lia. now rewrite <- Ha, Nat.sub_diag.
    - rewrite <- (nth_error_app1 _ (c :: L2)) by (rewrite app_length; lia). rewrite Ea, nth_error_app2 by lia. now rewrite <- Ha, Nat.sub_diag. }
  assert (forall c c', mutate k (fun x => Some (with_id j x)) c = Some c' -> el_id c <> k -> el_id c' = el_id c) as Hroot.
  { intros c c' Hm Hne. apply mutate_cases in Hm as [[Ec _]|(_ & ? & ? & ? & ? & _ & -> & _)]; [contradiction|now destruct c]. }
  assert (forall e L1 c c' Q y B2 My m q z, mutate k (fun x => Some (with_id j x)) c = Some c' -> el_children e = (L1 ++ c :: Q) ++ y :: B2 -> length (L1 ++ c :: Q) = m -> way q y = Some (My, z) ->
    ~ In k (el_id e :: map el_id (L1 ++ c :: Q) ++ My) -> way (m :: q) (with_children (L1 ++ c' :: Q ++ y :: B2) e) = Some (el_id e :: map el_id (L1 ++ c :: Q) ++ My, z)) as Hin.
  { intros e L1 c c' Q y B2 My m q0 z Hm E Hl Hq Hk. apply way_cons. exists (L1 ++ c' :: Q), y, B2, My. destruct e as [e1 e2 e3 e4 e5 e6 e7]; cbn [with_children el_children el_id] in *. split; [now rewrite <- app_assoc|].
    split; [rewrite <- Hl; now rewrite !app_length|]. split; [exact Hq|]. f_equal. rewrite !map_app. cbn [map]. f_equal. f_equal. f_equal.
    symmetry. apply Hroot; [exact Hm|]. intros Ec. apply Hk. right. apply in_app_iff. left. rewrite map_app. cbn [map]. apply in_app_iff. right. now left. }
  intros Hpq. induction Hpq as [n m p1 q1 Hnm|n p1 q1 Hl IH]; intros e e' M L z Hp Hq HL Hm;
    apply way_cons in Hp as (A1 & x & A2 & Mx & Ea & Ha & Hp & EM); apply way_cons in Hq as (B1 & y & B2 & My & Eb & Hb & Hq & ->);
    apply mutate_cases in Hm as [[E _]|(Hne & L1 & c & c' & L2 & E & -> & Hn & Hm)]; try (exfalso; apply HL; left; exact E).
  - pose proof E as E0. rewrite E in Ea, Eb. destruct (Hleft n m B1 y B2 A1 x A2 L1 c L2 Hnm Ea Ha Eb Hb (way_end _ _ _ _ Hp) Hn) as (Q & -> & ->).
    apply Hin; auto. rewrite E0. now rewrite <- app_assoc.
  - assert (A1 = B1 /\ x = y) as [<- <-].
    { rewrite Ea in Eb. destruct (app_cases _ _ _ _ _ _ Eb) as [(Q & -> & _)|[(-> & -> & _)|(Q & -> & _)]]; [|auto|]; rewrite app_length in *; cbn in *; lia. }
    pose proof E as E0. rewrite E in Eb. destruct (app_cases _ _ _ _ _ _ Eb) as [(Q & -> & ->)|[(-> & -> & ->)|(Q & -> & ->)]].
    + apply Hin; auto. rewrite E0. now rewrite <- app_assoc.
    + apply way_cons. exists A1, c', B2, My. destruct e as [e1 e2 e3 e4 e5 e6 e7]; cbn [with_children el_children el_id] in *. split; [reflexivity|]. split; [exact Hb|]. split; [|reflexivity].
      apply (IH x c' Mx My z Hp Hq); [|exact Hm]. intros Hi. apply HL. right. apply in_app_iff. auto.
    + exfalso. apply Hn. rewrite ids_of_app, ids_of_cons, !in_app_iff. right. left. now apply (way_end _ _ _ _ Hp).
Qed.

(** *** What a changeset renumbers and deletes *)
Lemma aims_impl (P Q : N -> Prop) o : (forall i, P i -> Q i) -> aims P o -> aims Q o.
Proof. intros H. unfold aims. destruct (op_instr o); auto; intros (i & E & Hi); eauto. Qed.
Lemma own_aims P a b : Forall (aims P) (diff_own a b).
Proof.
  unfold diff_own, diff_name, diff_attributes, diff_text, diff_listeners, generate_listeners. apply Forall_app. split; [destruct (str_eqb _ _); repeat constructor|].
  apply Forall_app. split; [destruct (hm_eqb _ _); [constructor|]|].
  { apply Forall_app. split; apply Forall_forall; intros o Ho; apply in_flat_map in Ho as (x & _ & Ho).
    - destruct (contains_key _ _); [destruct Ho|destruct Ho as [<-|[]]; exact I].
    - destruct (get _ _); [destruct (str_eqb _ _); [destruct Ho|]|]; destruct Ho as [<-|[]]; exact I. }
  apply Forall_app. split; [destruct (text_eqb _ _); [constructor|]; destruct (el_text b); repeat constructor|].
  destruct (listeners_eqb _ _); [constructor|]. constructor; [exact I|]. apply Forall_map, Forall_forall. intros x _. exact I.
Qed.
Lemma create_aims P d : forall p, Forall (aims P) (create_from_scratch d p).
Proof.
  induction d as [i n a l cs t k IH] using element_ind2. intros p. rewrite create_eq. constructor; [exact I|]. apply Forall_app. split.
  - rewrite !map_app, !Forall_app. split; [|split].
    + apply Forall_map, Forall_map, Forall_forall. intros x _. exact I.
    + apply Forall_map, Forall_map, Forall_forall. intros x _. exact I.
    + destruct t; repeat constructor.
  - apply Forall_flat_map. eapply Forall_impl; [|exact IH]. auto.
Qed.
Lemma cat_forall (P : op -> Prop) l os : cat_ops l = Some os -> (forall x, In (Some x) l -> Forall P x) -> Forall P os.
Proof.
  revert os. induction l as [|[x|] l IH]; cbn [cat_ops]; intros os; [intros [= <-]; constructor| |discriminate].
  destruct (cat_ops l) as [y|]; [|discriminate]. intros [= <-] H. apply Forall_app. split; [apply H; now left|]. apply IH; [reflexivity|]. intros z Hz. apply H. now right.
Qed.
(** The changes of children. *)
Definition kids_os (a b : element) : option (list op) :=
  if all_keyed a && all_keyed b then keyed_kids (el_children a) (el_children b) else plain_kids (el_id a) (el_children a) (el_children b).
Definition aims_at_old (b : element) : Prop := forall a os, unkeyed a -> unkeyed b -> diff_to b a = Some os -> Forall (aims (fun i => In i (ids a))) os.
Lemma kids_aims_when a b kos : Forall aims_at_old (el_children b) -> unkeyed a -> unkeyed b -> kids_os a b = Some kos -> Forall (aims (fun i => In i (ids_of (el_children a)))) kos.
Proof.
  intros IH Ua Ub Hx. unfold kids_os in Hx. pose proof (every_children _ _ Ua) as Uc. pose proof (every_children _ _ Ub) as Ubc.
  destruct (all_keyed a && all_keyed b) eqn:Ek.
  - apply andb_true_iff in Ek as [Ka Kb]. apply unkeyed_kids in Ka; [|exact Ua]. apply unkeyed_kids in Kb; [|exact Ub].
    rewrite Ka, Kb in Hx. cbn in Hx. injection Hx as <-. constructor.
  - unfold plain_kids in Hx. apply (cat_forall _ _ _ Hx). intros y Hy. cbn [In] in Hy. destruct Hy as [[= <-]|[Hy|[[= <-]|[]]]].
    + apply Forall_map, Forall_forall. intros c Hc. unfold aims. cbn. exists (el_id c). split; [reflexivity|]. unfold ids_of. apply in_flat_map. exists c. split; [|apply in_ids_root].
      destruct (nth_skip _ _ _ Hc) as (q & _ & Hq). now apply nth_error_In in Hq.
    + apply (cat_forall _ _ _ Hy). intros w Hw. apply zip_in in Hw as (m & c & d & Hc & Hd & E3). rewrite Forall_forall in IH, Uc, Ubc.
      apply nth_error_In in Hc, Hd. eapply Forall_impl; [|apply (IH d Hd c w (Uc c Hc) (Ubc d Hd) E3)]. intros o. apply aims_impl. intros i Hi. unfold ids_of. apply in_flat_map. eauto.
    + apply Forall_flat_map, Forall_forall. intros d _. apply create_aims.
Qed.
Lemma diff_aims b : aims_at_old b.
Proof.
  induction b as [bi bn ba bl bc bt bk IH] using element_ind2. intros a os Ua Ub E. rewrite diff_to_eq in E.
  apply (cat_forall _ _ _ E). intros x Hx. cbn [In] in Hx. destruct Hx as [[= <-]|[Hx|[[= <-]|[]]]].
  - apply own_aims.
  - eapply Forall_impl; [|eapply kids_aims_when; [|exact Ua|exact Ub|exact Hx]; exact IH]. intros o. apply aims_impl. intros i. apply in_ids_kids.
  - unfold diff_id. destruct (N.eqb _ _); constructor; [|constructor]. exists (el_id a). split; [reflexivity|apply in_ids_root].
Qed.
Lemma kids_aims a b kos : unkeyed a -> unkeyed b -> kids_os a b = Some kos -> Forall (aims (fun i => In i (ids_of (el_children a)))) kos.
Proof. apply kids_aims_when. apply Forall_forall. intros d _. apply diff_aims. Qed.
Lemma zip_aims C D os : Forall unkeyed C -> Forall unkeyed D -> cat_ops (zip_ops D C) = Some os -> Forall (aims (fun i => In i (ids_of C))) os.
Proof.
  intros UC UD E. apply (cat_forall _ _ _ E). intros w Hw. apply zip_in in Hw as (m & c & d & Hc & Hd & E3). rewrite Forall_forall in UC, UD.
  apply nth_error_In in Hc, Hd. eapply Forall_impl; [|apply (diff_aims d c w (UC c Hc) (UD d Hd) E3)]. intros o. apply aims_impl. intros i Hi. unfold ids_of. apply in_flat_map. eauto.
Qed.
Lemma diff_some b : unkeyed b -> forall a, exists os, diff_to b a = Some os.
Proof.
  intros Ub a. destruct (diff_to b a) as [os|] eqn:E; [eauto|]. exfalso. apply (diff_total b) with (a := a); [|exact E]. clear a E.
  induction b as [bi bn ba bl bc bt bk IH] using element_ind2. pose proof (every_children _ _ Ub) as Hc. cbn [el_children] in Hc. constructor.
  - cbn [el_children]. destruct bc as [|c [|c2 bc]]; auto. inversion Hc as [|? ? H1 _]; subst. exact (every_root _ _ H1).
  - cbn [el_children]. clear Ub. induction IH as [|c cs H1 _ IHcs]; [constructor|]. inversion Hc; subst. constructor; [exact (H1 H2)|auto].
Qed.

(** *** The children before the first one that is pushed back are edited correctly *)
Lemma same_fits b : forall a, matched same_id a b -> fits a b.
Proof.
  induction b as [bi bn ba bl bc bt bk IH] using element_ind2. intros a H. inversion H as [? ? E Hl]; subst. apply FitsSame; [exact E|].
  cbn [el_children] in *. clear -IH Hl. revert IH Hl. generalize (el_children a). intros ac. revert ac. induction bc as [|d ds IHd]; intros ac IH Hl; [destruct ac; constructor|].
  inversion Hl as [|? | c d' cs ds' H1 H2]; subst; [constructor|]. inversion IH as [|? ? I1 I2]; subst. constructor; auto.
Qed.
Lemma numbered_cons i c cs m : numbered_list i (c :: cs) m -> exists j, numbered i c j /\ numbered_list j cs m.
Proof. inversion 1; subst; eauto. Qed.
Lemma prefix_runs C D : Forall2 (matched same_id) C D -> forall i m m', numbered_list i C m -> numbered_list i D m' ->
  Forall unkeyed C -> Forall unkeyed D -> Forall (proper max) C -> Forall (proper max) D ->
  exists os, cat_ops (zip_ops D C) = Some os /\ forall done r n a l rest t k, r < i -> (forall x, In x (ids_of done) -> x < i) ->
    exists D', Forall2 view D' D /\ runs max (fun x => i <= x) os (Element r n a l (done ++ C ++ rest) t k) (Element r n a l (done ++ D' ++ rest) t k).
Proof.
  induction 1 as [|c d C D Hcd HCD IH]; intros i m m' NC ND UC UD PC PD.
  - exists []. split; [reflexivity|]. intros. exists []. split; constructor.
  - apply numbered_cons in NC as (j & Nc & NC). apply numbered_cons in ND as (j' & Nd & ND).
    inversion UC as [|? ? Uc UC']; subst. inversion UD as [|? ? Ud UD']; subst. inversion PC as [|? ? Pc PC']; subst. inversion PD as [|? ? Pd PD']; subst.
    destruct (numbered_range _ _ _ Nc) as (R1 & R2 & R3 & _). destruct (numbered_range _ _ _ Nd) as (Q1 & Q2 & Q3 & _).
    assert (safe c d) as Hs by (eapply fits_safe; eauto; now apply same_fits).
    destruct (safe_edits max d c Hs Pc Pd) as (os1 & E1 & H1).
    destruct (H1 c (view_refl c)) as (d' & Vd & Rd).
    assert (forall x, In x (ids c) \/ In x (created d c) -> i <= x) as Hge by (intros x [Hx|Hx]; [now apply R3|apply created_incl_ids in Hx; now apply Q3]).
    assert (exists os2, cat_ops (zip_ops D C) = Some os2 /\ forall done r n a l rest t k, r < i -> (forall x, In x (ids_of done) -> x < j') ->
      exists D', Forall2 view D' D /\ runs max (fun x => i <= x) os2 (Element r n a l (done ++ C ++ rest) t k) (Element r n a l (done ++ D' ++ rest) t k)) as (os2 & E2 & H2).
    { inversion HCD as [|c2 d2 C2 D2 H12 HCD' EC ED]; subst.
      - exists []. split; [reflexivity|]. intros. exists []. split; constructor.
      - assert (j = j') as <-. { apply numbered_cons in NC as (? & N1 & _). apply numbered_cons in ND as (? & N2 & _). apply numbered_range in N1 as (_ & <- & _). apply numbered_range in N2 as (_ & <- & _). now inversion H12. }
        destruct (IH j m m' NC ND UC' UD' PC' PD') as (os2 & E2 & H2). exists os2. split; [exact E2|]. intros done r n a l rest t k Hr Hd.
        destruct (H2 done r n a l rest t k) as (D' & V & R); [lia|exact Hd|]. exists D'. split; [exact V|]. eapply runs_mono; [|exact R]. cbn beta. intros. lia. }
    exists (os1 ++ os2). split. { cbn [zip_ops cat_ops]. now rewrite E1, E2. }
    intros done r n a l rest t k Hr Hd. destruct (H2 (done ++ [d']) r n a l rest t k Hr) as (D' & V & R).
    { intros x. rewrite ids_of_app, ids_of_one, in_app_iff. intros [Hx|Hx]; [apply Hd in Hx; lia|]. rewrite (view_ids _ _ Vd) in Hx. apply Q3 in Hx. lia. }
    exists (d' :: D'). split; [now constructor|]. eapply runs_app; [|rewrite <- !app_assoc in R; exact R]. cbn [app].
    apply (runs_lift max (fun x => In x (ids c) \/ In x (created d c))); [exact Rd| |exact Hge].
    intros x Hx. apply Hge in Hx. split; [lia|]. intros Hi. apply Hd in Hi. lia.
Qed.

Lemma zip_app D1 C1 D2 C2 : length D1 = length C1 -> zip_ops (D1 ++ D2) (C1 ++ C2) = zip_ops D1 C1 ++ zip_ops D2 C2.
Proof. revert C1. induction D1 as [|d D1 IH]; intros [|c C1]; cbn; try discriminate; [reflexivity|]. intros [= H]. now rewrite IH. Qed.
Lemma cat_app l1 l2 : cat_ops (l1 ++ l2) = match cat_ops l1, cat_ops l2 with Some a, Some b => Some (a ++ b) | _, _ => None end.
Proof.
  induction l1 as [|[x|] l1 IH]; cbn [app cat_ops]; [now destruct (cat_ops l2)| |reflexivity]. rewrite IH. destruct (cat_ops l1), (cat_ops l2); auto. now rewrite app_assoc.
Qed.
Lemma zip_some D : Forall unkeyed D -> forall C, exists os, cat_ops (zip_ops D C) = Some os.
Proof.
  induction 1 as [|d D Hd HD IH]; intros C; [exists []; reflexivity|]. destruct C as [|c C]; [exists []; reflexivity|]. cbn [zip_ops cat_ops].
  destruct (diff_some d Hd c) as (o1 & ->). destruct (IH C) as (o2 & ->). eauto.
Qed.
(** A number occurs in a numbered tree at the end of a path that meets smaller numbers only. *)
Lemma numbered_way : (forall i e j, numbered i e j -> forall k, In k (ids e) -> exists p M, way p e = Some (M, k) /\ Forall (fun x => x < k) M) /\
  (forall i l j, numbered_list i l j -> forall k, In k (ids_of l) -> exists L1 c L2 p M, l = L1 ++ c :: L2 /\ way p c = Some (M, k) /\ Forall (fun x => x < k) (map el_id L1 ++ M)).
Proof.
  apply numbered_both.
  - intros i n a l cs t k j Hl IH z Hz. cbn [ids] in Hz. destruct Hz as [<-|Hz]; [exists [], []; cbn; auto|].
    destruct (IH z Hz) as (L1 & c & L2 & p & M & -> & Hp & HM). exists (length L1 :: p), (i :: map el_id L1 ++ M). split.
    + apply way_cons. exists L1, c, L2, M. auto.
    + constructor; [|exact HM]. apply numbered_list_range in Hl as (_ & Hl & _). apply Hl in Hz. lia.
  - intros i z [].
  - intros i c cs j m Hc IHc Hcs IHcs z Hz. rewrite ids_of_cons, in_app_iff in Hz. destruct Hz as [Hz|Hz].
    + destruct (IHc z Hz) as (p & M & Hp & HM). exists [], c, cs, p, M. auto.
    + destruct (IHcs z Hz) as (L1 & x & L2 & p & M & -> & Hp & HM). exists (c :: L1), x, L2, p, M. split; [reflexivity|]. split; [exact Hp|].
      cbn [map app]. constructor; [|exact HM]. apply numbered_range in Hc as (H1 & -> & _). apply numbered_list_range in Hcs as (_ & Hcs & _). apply Hcs in Hz. lia.
Qed.
Lemma views_map_id xs es : Forall2 view xs es -> map el_id xs = map el_id es.
Proof. induction 1 as [|x e xs es H _ IH]; [reflexivity|]. cbn [map]. now rewrite IH, (view_root_id _ _ H). Qed.
Lemma view_way p : forall x e, view x e -> way p x = way p e.
Proof.
  induction p as [|n p IH]; intros x e H; inversion H as [i nm a1 a2 l cs1 cs2 t k1 k2 _ Hc]; subst; [reflexivity|]. cbn [way el_children el_id].
  assert (map el_id (firstn n cs1) = map el_id (firstn n cs2)) as -> by (apply views_map_id, forall2_firstn; exact Hc).
  generalize (map el_id (firstn n cs2)). intros ids0. clear -IH Hc. revert n. induction Hc as [|x e xs es H _ IHc]; intros n; [now destruct n|]. destruct n; cbn [nth_error]; [|apply IHc]. rewrite (IH _ _ H). reflexivity.
Qed.

Lemma pushed_run b : forall a, pushed a b -> forall i j j', numbered i a j -> numbered i b j' -> unkeyed a -> unkeyed b -> proper max a -> proper max b ->
  exists os1 osm os2 k k' p q T M L,
    diff_to b a = Some (os1 ++ osm ++ Op (dec k) (SetId (dec k')) :: os2) /\ i < k < j /\ k < k' /\ k' <= max /\
    runs max (fun x => i <= x) os1 a T /\ way p T = Some (M, k) /\ way q T = Some (L, k) /\ leftof p q /\ Forall (fun x => x < k) M /\ Forall (fun x => x < k) L /\
    Forall (gentle k) (osm ++ os2) /\ exists d, at_path q b = Some d /\ el_id d = k'.
Proof.
  induction b as [bi bn ba bl bc bt bk IH] using element_ind2. intros a Hp i j j' Na Nb Ua Ub Pa Pb. set (b := Element bi bn ba bl bc bt bk) in *.
  inversion Hp as [a0 b0 C c C2 D d D2 Eid Ea Eb HCD Hone]; subst a0 b0. change (el_children b) with bc in Eb. change (el_id b) with bi in Eid.
  destruct a as [ai an aa al ac at_ ak]. cbn [el_children el_id] in Ea, Eid. subst bi. subst ac. subst bc.
  pose proof (every_children _ _ Ua) as UC. pose proof (every_children _ _ Ub) as UD. pose proof (every_children _ _ Pa) as PC. pose proof (every_children _ _ Pb) as PD.
  destruct (every_root _ _ Pa) as [Ia Wa]. destruct (every_root _ _ Pb) as [_ Wb]. change (el_children b) with (D ++ d :: D2) in *. change (el_attrs b) with ba in Wb. cbn [el_id el_children el_attrs] in *.
  apply Forall_app in UC as [UC UC2]. apply Forall_app in UD as [UD UD2]. apply Forall_app in PC as [PC PC2]. apply Forall_app in PD as [PD PD2].
  inversion UC2 as [|? ? Uc UC2']; subst. inversion UD2 as [|? ? Ud UD2']; subst. inversion PC2 as [|? ? Pc PC2']; subst. inversion PD2 as [|? ? Pd PD2']; subst.
  assert (i = ai) as -> by (apply numbered_range in Na as (_ & E & _); exact (eq_sym E)).
  assert (exists m, numbered_list (ai + 1) C m /\ numbered_list m (c :: C2) j) as (m & NC & NC2) by (apply numbered_list_app; now inversion Na).
  assert (exists m', numbered_list (ai + 1) D m' /\ numbered_list m' (d :: D2) j') as (m' & ND & ND2) by (apply numbered_list_app; now inversion Nb).
  apply numbered_cons in NC2 as (jc & Nc & NC2). apply numbered_cons in ND2 as (jd & Nd & ND2).
  destruct (numbered_range _ _ _ Nc) as (Rc1 & Rc2 & Rc3 & _). destruct (numbered_range _ _ _ Nd) as (Rd1 & Rd2 & Rd3 & _).
  destruct (numbered_list_range _ _ _ NC) as (RC1 & RC2 & _). destruct (numbered_list_range _ _ _ ND) as (RD1 & RD2 & _). destruct (numbered_list_range _ _ _ NC2) as (RE1 & RE2 & _).
  pose proof (forall2_len _ _ _ HCD) as Hlen.
  (* the changeset *)
  destruct (prefix_runs C D HCD (ai + 1) m m' NC ND UC UD PC PD) as (z1 & Ez1 & Hz1).
  destruct (zip_some D2 UD2' C2) as (z2 & Ez2).
  destruct (diff_some d Ud c) as (dc & Edc).
  set (dels := map (fun x => Op (id_str x) DeleteEl) (skipn (length (D ++ d :: D2)) (C ++ c :: C2))).
  set (news := flat_map (fun x => create_from_scratch x (Some (dec ai))) (skipn (length (C ++ c :: C2)) (D ++ d :: D2))).
  set (a := Element ai an aa al (C ++ c :: C2) at_ ak) in *.
  assert (diff_to b a = Some (diff_own a b ++ dels ++ z1 ++ dc ++ z2 ++ news)) as Ediff.
  { rewrite diff_to_eq. assert (all_keyed a && all_keyed b = false) as ->.
    { destruct (all_keyed a) eqn:K; [|reflexivity]. apply unkeyed_kids in K; [|exact Ua]. cbn in K. destruct C; discriminate. }
    unfold plain_kids. change (el_children a) with (C ++ c :: C2). change (el_children b) with (D ++ d :: D2). rewrite zip_app by auto. cbn [zip_ops]. rewrite cat_app, Ez1. cbn [cat_ops]. rewrite Edc, Ez2.
    unfold diff_id. change (el_id a) with ai. change (el_id b) with ai. rewrite N.eqb_refl. unfold dels, news. rewrite !app_nil_r, <- !app_assoc. reflexivity. }
  (* the state when its turn comes *)
  destruct (diff_own_spec a b Wa Wb (or_introl eq_refl)) as (own & Eown & Hown).
  destruct (Hown ai aa (C ++ c :: C2) ak (hm_equiv_refl _)) as (m1 & Ho & _). change (el_name a) with an in Ho. change (el_listeners a) with al in Ho. change (el_text a) with at_ in Ho.
  change (el_name b) with bn in Ho. change (el_listeners b) with bl in Ho. change (el_text b) with bt in Ho.
  set (C3 := firstn (length D2) C2).
  assert (firstn (length (D ++ d :: D2)) (C ++ c :: C2) = C ++ c :: C3) as Efirst.
  { rewrite app_length. cbn [length]. rewrite firstn_app, firstn_all2 by lia. replace (length D + S (length D2) - length C)%nat with (S (length D2)) by lia. reflexivity. }
  assert (skipn (length (D ++ d :: D2)) (C ++ c :: C2) = skipn (length D2) C2) as Eskip.
  { rewrite app_length. cbn [length]. rewrite skipn_app, skipn_all2 by lia. replace (length D + S (length D2) - length C)%nat with (S (length D2)) by lia. reflexivity. }
  destruct (Hz1 [] ai bn m1 bl (c :: C3) bt ak) as (D' & VD & Rz1); [lia|intros x []|]. cbn [app] in Rz1.
  assert (runs max (fun x => ai <= x) (diff_own a b ++ dels ++ z1) a (Element ai bn m1 bl (D' ++ c :: C3) bt ak)) as R1.
  { eapply runs_app; [rewrite Eown; change (id_str a) with (dec ai); apply runs_own with (e' := Element ai bn m1 bl (C ++ c :: C2) bt ak); [exact Ia|reflexivity|cbn beta; lia|exact Ho]|].
    eapply runs_app; [|eapply runs_mono; [|exact Rz1]; cbn beta; intros; lia].
    unfold dels. rewrite <- Efirst. rewrite <- (firstn_skipn (length (D ++ d :: D2)) (C ++ c :: C2)) at 2. apply deletes_runs; auto; try lia.
    - apply views_refl.
    - rewrite Eskip, Efirst. apply Forall_forall. intros x Hx. assert (In x C2) as Hx2 by (destruct (nth_skip _ _ _ Hx) as (q & _ & Hq); now apply nth_error_In in Hq).
      assert (In (el_id x) (ids_of C2)) as Hi by (unfold ids_of; apply in_flat_map; exists x; split; [exact Hx2|apply in_ids_root]).
      pose proof (RE2 _ Hi) as Hr. split; [|split; [lia|]].
      + rewrite Forall_forall in PC2'. apply (every_root _ _ (PC2' x Hx2)).
      + rewrite ids_of_app, ids_of_cons, !in_app_iff. intros [H|[H|H]]; [apply RC2 in H; lia|apply Rc3 in H; lia|].
        assert (NoDup (ids_of (firstn (length D2) C2 ++ skipn (length D2) C2))) as Hnd by (rewrite firstn_skipn; now apply numbered_list_range in NC2).
        rewrite ids_of_app in Hnd. apply nodup_app_iff in Hnd as (_ & _ & Hnd). apply (Hnd _ H). unfold ids_of. apply in_flat_map. exists x. split; [exact Hx|apply in_ids_root].
    - intros x Hx. rewrite Eskip in Hx. apply in_ids_skipn in Hx. apply RE2 in Hx. lia. }
  assert (Forall (fun x => x < m) (ai :: map el_id D')) as HD'.
  { constructor; [lia|]. rewrite (views_map_id _ _ VD). clear -HCD RC2. apply Forall_forall. intros x Hx. apply in_map_iff in Hx as (y & <- & Hy).
    assert (exists z, In z C /\ el_id z = el_id y) as (z & Hz & <-).
    { clear RC2. induction HCD as [|c d C D H _ IH]; [destruct Hy|]. destruct Hy as [<-|Hy]; [exists c; split; [now left|now inversion H]|]. destruct (IH Hy) as (z & Hz & E). exists z. split; [now right|exact E]. }
    apply RC2. unfold ids_of. apply in_flat_map. exists z. split; [exact Hz|apply in_ids_root]. }
  assert (Forall (gentle m) (z2 ++ news)) as Hgentle.
  { apply Forall_app. split; [|unfold news; apply Forall_flat_map, Forall_forall; intros d0 _; apply create_aims].
    eapply Forall_impl; [|apply (zip_aims _ _ _ UC2' UD2' Ez2)]. intros o. apply aims_impl. intros x Hx. apply RE2 in Hx. lia. }
  inversion Hone as [c0 d0 Hlt|c0 d0 Hpush]; subst c0 d0.
  - (* the child itself is pushed back *)
    rewrite Rc2, Rd2 in Hlt.
    destruct (proj2 numbered_way _ _ _ ND m) as (L1 & x & L2 & p & M & EL & Hway & HM).
    { pose proof (proj2 numbered_count _ _ _ ND) as Hc. rewrite (proj2 numbered_seq _ _ _ ND). apply in_map_iff. exists (N.to_nat (m - (ai + 1))). split; [lia|]. apply in_seq. lia. }
    assert (kids_os c d <> None) as Hk.
    { intros E. rewrite diff_to_eq in Edc. fold (kids_os c d) in Edc. rewrite E in Edc. discriminate. }
    destruct (kids_os c d) as [kos|] eqn:Ek; [|congruence]. clear Hk.
    assert (dc = (diff_own c d ++ kos) ++ [Op (dec m) (SetId (dec m'))]) as Edc'.
    { rewrite diff_to_eq in Edc. fold (kids_os c d) in Edc. rewrite Ek in Edc. cbn [cat_ops] in Edc. injection Edc as <-. unfold diff_id, id_str. rewrite Rc2, Rd2. destruct (N.eqb_spec m m'); [lia|]. now rewrite app_nil_r, app_assoc. }
    exists (diff_own a b ++ dels ++ z1), (diff_own c d ++ kos), (z2 ++ news), m, m', (length L1 :: p), [length C], (Element ai bn m1 bl (D' ++ c :: C3) bt ak), (ai :: map el_id L1 ++ M), (ai :: map el_id D').
    split. { rewrite Ediff, Edc'. f_equal. rewrite <- !app_assoc. reflexivity. }
    split; [lia|]. split; [exact Hlt|]. split; [destruct (every_root _ _ Pd) as [H1 _]; lia|]. split; [exact R1|].
    assert (way (length L1 :: p) (Element ai bn m1 bl D' bt ak) = Some (ai :: map el_id L1 ++ M, m)) as Hw.
    { rewrite (view_way _ _ (Element ai bn m1 bl D bt ak)) by (constructor; [apply hm_equiv_refl|exact VD]). apply way_cons. exists L1, x, L2, M. cbn [el_children el_id]. auto. }
    split. { apply way_cons in Hw as (P1 & y & P2 & M' & E1 & E2 & E3 & E4). cbn [el_children el_id] in *. apply way_cons. exists P1, y, (P2 ++ c :: C3), M'. cbn [el_children el_id]. rewrite E1, <- app_assoc. auto. }
    split. { apply way_cons. exists D', c, C3, []. cbn [el_children el_id]. split; [reflexivity|]. split; [rewrite (forall2_len _ _ _ VD); auto|]. split; [cbn; now rewrite Rc2|now rewrite app_nil_r]. }
    split. { constructor. rewrite Hlen, EL, app_length. cbn. lia. }
    split. { constructor; [lia|exact HM]. }
    split; [exact HD'|].
    split.
    { rewrite Forall_app. split; [|exact Hgentle]. apply Forall_app. split; [apply own_aims|].
      eapply Forall_impl; [|apply (kids_aims c d kos Uc Ud Ek)]. intros o. apply aims_impl. intros y Hy. cbn beta in Hy.
      destruct c as [c1 c2 c3 c4 c5 c6 c7]. cbn [el_children el_id] in *. subst c1. inversion Nc as [? ? ? ? ? ? ? ? Hcs]; subst. apply numbered_list_range in Hcs as (_ & Hcs & _). apply Hcs in Hy. lia. }
    exists d. split; [|exact Rd2]. cbn [at_path]. change (el_children b) with (D ++ d :: D2). rewrite nth_error_app2 by lia. now rewrite <- Hlen, Nat.sub_diag.
  - (* something below the child is *)
    assert (m = m') as <- by (inversion Hpush as [? ? ? ? ? ? ? ? E]; subst; congruence).
    assert (In d (D ++ d :: D2)) as Hin by (apply in_app_iff; right; now left).
    rewrite Forall_forall in IH. destruct (IH d Hin c Hpush m jc jd Nc Nd Uc Ud Pc Pd) as (os1 & osm & os2 & k & k' & p & q & T & M & L & E & Hk & Hkk & Hmax & Hrun & Wp & Wq & Hlq & HM & HL & Hg & x & Hx & Hxid).
    rewrite E in Edc. injection Edc as <-.
    exists ((diff_own a b ++ dels ++ z1) ++ os1), osm, (os2 ++ z2 ++ news), k, k', (length C :: p), (length C :: q), (Element ai bn m1 bl (D' ++ T :: C3) bt ak), (ai :: map el_id D' ++ M), (ai :: map el_id D' ++ L).
    assert (forall P, Forall (fun x => x < k) P -> Forall (fun x => x < k) (ai :: map el_id D' ++ P)) as Hup.
    { intros P HP. inversion HD' as [|? ? H1 H2]; subst. constructor; [lia|]. apply Forall_app. split; [|exact HP]. eapply Forall_impl; [|exact H2]. cbn beta. intros; lia. }
    assert (length D' = length C) as HlD by (rewrite (forall2_len _ _ _ VD); auto).
    split. { rewrite Ediff. f_equal. rewrite <- !app_assoc. cbn [app]. f_equal. }
    split; [lia|]. split; [exact Hkk|]. split; [exact Hmax|]. split.
    { eapply runs_app; [exact R1|]. eapply runs_lift; [exact Hrun| |cbn beta; intros; lia]. cbn beta. intros y Hy. split; [lia|]. rewrite (views_ids _ _ VD). intros Hy'. apply RD2 in Hy'. lia. }
    split. { apply way_cons. exists D', T, C3, M. auto. }
    split. { apply way_cons. exists D', T, C3, L. auto. }
    split; [now constructor|]. split; [now apply Hup|]. split; [now apply Hup|].
    split.
    { rewrite app_assoc. apply Forall_app. split; [exact Hg|]. apply Forall_app in Hgentle as [Hz Hn]. apply Forall_app. split; [|unfold news; apply Forall_flat_map, Forall_forall; intros d0 _; apply create_aims].
      eapply Forall_impl; [|apply (zip_aims _ _ _ UC2' UD2' Ez2)]. intros o. apply aims_impl. intros y Hy. apply RE2 in Hy. lia. }
    exists x. split; [|exact Hxid]. cbn [at_path]. change (el_children b) with (D ++ d :: D2). rewrite nth_error_app2 by lia. now rewrite <- Hlen, Nat.sub_diag.
Qed.

(** So the page that results has the old number there. *)
Lemma pushed_never a b : pushed a b -> forall i j j', numbered i a j -> numbered i b j' -> unkeyed a -> unkeyed b -> proper max a -> proper max b ->
  forall os b', diff_to b a = Some os -> apply max os a = Some b' -> ~ view b' b.
Proof.
  intros Hp i j j' Na Nb Ua Ub Pa Pb os b' Ho Ha V.
  destruct (pushed_run b a Hp i j j' Na Nb Ua Ub Pa Pb) as (os1 & osm & os2 & k & k' & p & q & T & M & L & E & Hk & Hkk & Hmax & Hrun & Wp & Wq & Hl & HM & HL & Hg & x & Hx & Hxid).
  rewrite E in Ho. injection Ho as <-. rewrite apply_app, (runs_apply _ _ _ _ _ Hrun), apply_app in Ha. apply Forall_app in Hg as [Hg1 Hg2].
  destruct (apply max osm T) as [T1|] eqn:E1; [|discriminate]. cbn [apply] in Ha. destruct (apply_op max _ T1) as [T2|] eqn:E2; [|discriminate].
  assert (forall P, Forall (fun x => x < k) P -> Forall (fun x => x <= k) (k :: P)) as Hle by (intros P HP; constructor; [lia|]; eapply Forall_impl; [|exact HP]; cbn beta; intros; lia).
  pose proof (gentle_paths k osm p M k Hg1 T T1 E1 Wp (Hle _ HM)) as W1. pose proof (gentle_paths k osm q L k Hg1 T T1 E1 Wq (Hle _ HL)) as W2.
  unfold apply_op in E2. cbn [op_id op_instr] in E2. rewrite !parse_dec in E2 by lia.
  assert (way q T2 = Some (L, k)) as W3.
  { apply (rename_left k k' p q Hl T1 T2 M L k W1 W2); [|exact E2]. intros H. rewrite Forall_forall in HL. apply HL in H. lia. }
  pose proof (gentle_paths k os2 q L k Hg2 T2 b' Ha W3 (Hle _ HL)) as W4. rewrite (view_way _ _ _ V) in W4. apply way_at in W4 as (y & Hy & Hyid). rewrite Hx in Hy. injection Hy as <-. lia.
Qed.
End Max.

(** A page that only grows keeps all numbers, or pushes an element back. *)
Lemma grows_cases : forall b i a j j', numbered i a j -> numbered i b j' -> grows a b -> (matched same_id a b /\ j <= j') \/ pushed a b.
Proof.
  induction b as [bi bn ba bl bc bt bk IH] using element_ind2. intros i a j j' Na Nb Hg. destruct a as [ai an aa al ac at_ ak].
  inversion Na as [? ? ? ? ? ? ? ? Nac]; subst. inversion Nb as [? ? ? ? ? ? ? ? Nbc]; subst. inversion Hg as [? ? Hlen Hl]; subst. cbn [el_children] in *.
  assert ((matched_list same_id ac bc /\ j <= j') \/ exists C c C2 D d D2, ac = C ++ c :: C2 /\ bc = D ++ d :: D2 /\ Forall2 (matched same_id) C D /\ pushed_one c d) as H.
  { clear Na Nb Hg. revert IH ac Hlen Hl Nac Nbc. generalize (bi + 1). induction bc as [|d ds IHd]; intros i IH ac Hlen Hl Nac Nbc.
    - destruct ac; cbn in Hlen; [|lia]. inversion Nac; inversion Nbc; subst. left. split; [constructor|lia].
    - destruct ac as [|c cs].
      + inversion Nac; subst. left. split; [constructor|]. now apply numbered_list_range in Nbc.
      + inversion Hl as [|?|? ? ? ? H1 H2]; subst. inversion IH as [|? ? I1 I2]; subst. apply numbered_cons in Nac as (m & Nc & Ncs). apply numbered_cons in Nbc as (m' & Nd & Nds).
        cbn [length] in Hlen. destruct (I1 _ _ _ _ Nc Nd H1) as [[Hm Hle]|Hp].
        * destruct (N.eq_dec m m') as [<-|Hne].
          { destruct (IHd m I2 cs ltac:(lia) H2 Ncs Nds) as [[H3 H4]|(C & c' & C2 & D & d' & D2 & -> & -> & H3 & H4)].
            - left. split; [now constructor|exact H4].
            - right. exists (c :: C), c', C2, (d :: D), d', D2. repeat split; auto. }
          destruct cs as [|c2 cs].
          { inversion Ncs; subst. left. split; [constructor; [exact Hm|constructor]|]. apply numbered_list_range in Nds as (? & _). lia. }
          destruct ds as [|d2 ds]; [cbn in Hlen; lia|]. right. exists [c], c2, cs, [d], d2, ds. repeat split; auto. apply PushedHere.
          apply numbered_cons in Ncs as (? & N1 & _). apply numbered_cons in Nds as (? & N2 & _). apply numbered_range in N1 as (_ & -> & _). apply numbered_range in N2 as (_ & -> & _). lia.
        * right. exists [], c, cs, [], d, ds. repeat split; auto. now apply PushedIn. }
  destruct H as [[H1 H2]|(C & c & C2 & D & d & D2 & -> & -> & H1 & H2)]; [left; split; [constructor; [reflexivity|exact H1]|exact H2]|right].
  apply (Pushed _ _ C c C2 D d D2); auto.
Qed.
