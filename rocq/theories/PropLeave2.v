(** * C118: exactly what a click and the Enter key set off *)
From Verif Require Import Base HMap Json ClientModel UserModel LeaveModel LeaveSpec PropLeave.
From Coq Require Import Lia Sorting.Sorted.

(** ** Elements *)
Lemma tag_iff t n : t <> [] -> v_tag n = t <-> tag_is t n.
Proof.
  intros Ht. destruct n as [s|t' a ty l kids]; cbn [v_tag]; split.
  - congruence.
  - intros (a & ty & l & kids & [=]).
  - intros ->. now exists a, ty, l, kids.
  - intros (a' & ty' & l' & kids' & [= -> _ _ _ _]). reflexivity.
Qed.
Lemma attr_iff k v n : v_attr k n = Some v <-> has_attr k v n.
Proof.
  destruct n as [s|t a ty l kids]; cbn [v_attr]; split.
  - discriminate.
  - intros (t & a & ty & l & kids & [=] & _).
  - intros H. now exists t, a, ty, l, kids.
  - intros (t' & a' & ty' & l' & kids' & [= <- <- <- <- <-] & H). exact H.
Qed.
Lemma no_attr_iff k n : v_attr k n = None <-> lacks_attr k n.
Proof.
  split.
  - intros H v Hv. apply attr_iff in Hv. congruence.
  - intros H. destruct (v_attr k n) as [v|] eqn:E; [|reflexivity]. apply attr_iff in E. now destruct (H v).
Qed.
Lemma has_iff k n : v_has k n = true <-> exists v, has_attr k v n.
Proof.
  unfold v_has. destruct (v_attr k n) as [v|] eqn:E.
  - split; [intros _; exists v; now apply attr_iff|reflexivity].
  - split; [discriminate|]. intros [v H]. apply attr_iff in H. congruence.
Qed.
Lemma enabled_iff n : v_has (bs "disabled") n = false <-> enabled n.
Proof. unfold enabled. rewrite <- no_attr_iff. unfold v_has. destruct (v_attr _ n); split; congruence. Qed.
Lemma type_iff t n : t <> [] -> v_type n = t <-> typed_as t n.
Proof.
  intros Ht. unfold v_type, typed_as. destruct (v_attr (bs "type") n) as [v|] eqn:E.
  - apply attr_iff in E. split; [eauto|]. intros (v' & H & <-). apply attr_iff in H, E. congruence.
  - split; [congruence|]. intros (v & H & _). apply attr_iff in H. congruence.
Qed.
Lemma tag_b t n : t <> [] -> str_eqb (v_tag n) t = true <-> tag_is t n.
Proof. intros Ht. rewrite str_eqb_eq. now apply tag_iff. Qed.
Lemma type_b t n : t <> [] -> str_eqb (v_type n) t = true <-> typed_as t n.
Proof. intros Ht. rewrite str_eqb_eq. now apply type_iff. Qed.
Lemma tags_b ts n : Forall (fun t => t <> []) ts -> existsb (str_eqb (v_tag n)) ts = true <-> exists t, In t ts /\ tag_is t n.
Proof.
  intros F. rewrite Forall_forall in F. rewrite existsb_exists. split; intros (t & Hin & H); exists t; (split; [exact Hin|]); specialize (F t Hin); now apply tag_b.
Qed.
Lemma types_b ts n : Forall (fun t => t <> []) ts -> existsb (str_eqb (v_type n)) ts = true <-> exists t, In t ts /\ typed_as t n.
Proof.
  intros F. rewrite Forall_forall in F. rewrite existsb_exists. split; intros (t & Hin & H); exists t; (split; [exact Hin|]); specialize (F t Hin); now apply type_b.
Qed.
Ltac nonempty := repeat (constructor; [discriminate|]); constructor.
Lemma negb_iff b P : b = true <-> P -> negb b = true <-> ~ P.
Proof. intros H. destruct b; cbn [negb]; intuition congruence. Qed.
Lemma link_iff n : is_link n = true <-> link n.
Proof. unfold is_link, link. now rewrite andb_true_iff, orb_true_iff, !tag_b, has_iff by discriminate. Qed.
Lemma submits_iff n : submit_button n = true <-> submits n.
Proof.
  unfold submit_button, submits. rewrite orb_true_iff, !andb_true_iff, orb_true_iff, !tag_b, !type_b by discriminate.
  rewrite (negb_iff _ (typed_as (bs "reset") n \/ typed_as (bs "button") n)) by (now rewrite orb_true_iff, !type_b by discriminate). intuition.
Qed.
Lemma form_iff n : is_form n = true <-> tag_is (bs "form") n.
Proof. apply tag_b. discriminate. Qed.
Lemma reacts_iff n : reacts n = true <-> interactive n.
Proof. apply tags_b. nonempty. Qed.
Lemma labelable_iff n : labelable n = true <-> can_be_labeled n.
Proof.
  unfold labelable, can_be_labeled. rewrite andb_true_iff, tags_b by nonempty. rewrite (negb_iff _ (tag_is (bs "input") n /\ typed_as (bs "hidden") n)); [reflexivity|].
  now rewrite andb_true_iff, tag_b, type_b by discriminate.
Qed.
Lemma field_iff n : text_field n = true <-> line_field n.
Proof.
  unfold text_field, line_field. rewrite andb_true_iff, tag_b by discriminate. match goal with |- context [existsb (str_eqb (v_type n)) ?l] => rewrite (negb_iff _ _ (types_b l n ltac:(nonempty))) end. split.
  - intros [H1 H2]. split; [exact H1|]. intros t Ht Hn. apply H2. eauto.
  - intros [H1 H2]. split; [exact H1|]. intros (t & Ht & Hn). exact (H2 t Ht Hn).
Qed.
Lemma id_iff i n : v_has_id i n = true <-> has_attr (bs "id") i n.
Proof.
  rewrite <- attr_iff. destruct n as [s|t a ty l kids]; cbn [v_has_id v_attr]; [split; discriminate|]. change attr_id with (bs "id").
  destruct (get (bs "id") a) as [j|]; [|split; discriminate]. rewrite str_eqb_eq. split; congruence.
Qed.

(** ** Places in tree order *)
Fixpoint forest (j : nat) (ns : list vnode) : list place :=
  match ns with [] => [] | c :: ns' => [j] :: map (cons j) (places_in c) ++ forest (S j) ns' end.
Lemma all_places_forest doc : all_places doc = forest 0 doc.
Proof. unfold all_places. generalize 0. induction doc as [|c doc IH]; intros j; [reflexivity|]. cbn [forest]. rewrite <- (IH (S j)). reflexivity. Qed.
Lemma places_forest t a ty l kids : places_in (VElem t a ty l kids) = forest 0 kids.
Proof. cbn [places_in]. generalize 0. induction kids as [|c kids IH]; intros j; [reflexivity|]. cbn [forest]. rewrite <- (IH (S j)). reflexivity. Qed.
Lemma in_forest p : forall j ns, In p (forest j ns) <-> exists k p' c, p = (j + k) :: p' /\ nth_error ns k = Some c /\ (p' = [] \/ In p' (places_in c)).
Proof.
  intros j ns. revert j. induction ns as [|c ns IH]; intros j; cbn [forest In].
  - split; [intros []|]. intros (k & p' & c & _ & H & _). destruct k; discriminate.
  - rewrite in_app_iff, IH. split.
    + intros [<-|[H|(k & p' & c' & -> & Hc & H)]].
      * exists 0, [], c. rewrite Nat.add_0_r. auto.
      * apply in_map_iff in H as (p' & <- & H). exists 0, p', c. rewrite Nat.add_0_r. auto.
      * exists (S k), p', c'. rewrite <- plus_n_Sm. auto.
    + intros ([|k] & p' & c' & -> & Hc & H); cbn [nth_error] in Hc.
      * injection Hc as <-. rewrite Nat.add_0_r. destruct H as [->|H]; [now left|]. right. left. now apply in_map.
      * right. right. exists k, p', c'. rewrite <- plus_n_Sm. auto.
Qed.
Lemma node_at_cons j p doc : p <> [] -> node_at (j :: p) doc = match nth_error doc j with Some n => node_at p (v_kids n) | None => None end.
Proof.
  destruct p as [|k p]; [congruence|]. intros _. cbn [node_at]. destruct (nth_error doc j) as [[s|t a ty l kids]|]; [|reflexivity|reflexivity].
  cbn [v_kids]. destruct p; [destruct k; reflexivity|]. destruct k; reflexivity.
Qed.
Lemma in_places p : forall n, In p (places_in n) <-> exists m, node_at p (v_kids n) = Some m.
Proof.
  induction p as [|j p IH]; intros n.
  - split; [|intros (m & [=])]. destruct n as [s|t a ty l kids]; [intros []|]. rewrite places_forest, in_forest. intros (k & p' & c & [=] & _).
  - destruct n as [s|t a ty l kids]; [split; [intros []|]; intros (m & H); cbn [v_kids] in H; destruct p; destruct j; discriminate|].
    rewrite places_forest, in_forest. cbn [v_kids]. split.
    + intros (k & p' & c & [= -> ->] & Hc & H). cbn [Nat.add] in *. destruct p' as [|k' p']; [exists c; exact Hc|].
      destruct H as [H|H]; [discriminate|]. apply IH in H as (m & H). exists m. rewrite node_at_cons by discriminate. now rewrite Hc.
    + intros (m & H). destruct p as [|k p].
      * exists j, [], m. auto.
      * rewrite node_at_cons in H by discriminate. destruct (nth_error kids j) as [c|] eqn:E; [|discriminate]. exists j, (k :: p), c. split; [reflexivity|]. split; [exact E|]. right. apply IH. eauto.
Qed.
Lemma in_all_places p doc : In p (all_places doc) <-> exists n, node_at p doc = Some n.
Proof.
  rewrite all_places_forest. rewrite <- (places_forest [] [] None [] doc). apply (in_places p (VElem [] [] None [] doc)).
Qed.
Lemma Sorted_app {A} (R : A -> A -> Prop) l m : StronglySorted R l -> StronglySorted R m -> (forall x y, In x l -> In y m -> R x y) -> StronglySorted R (l ++ m).
Proof.
  induction 1 as [|x l S IH F]; intros Sm H; cbn [app]; [exact Sm|]. constructor; [apply IH; [exact Sm|]; intros; apply H; [now right|assumption]|].
  apply Forall_app. split; [exact F|]. apply Forall_forall. intros y Hy. apply H; [now left|exact Hy].
Qed.
Lemma Sorted_map {A B} (R : A -> A -> Prop) (Q : B -> B -> Prop) (f : A -> B) l : (forall x y, R x y -> Q (f x) (f y)) -> StronglySorted R l -> StronglySorted Q (map f l).
Proof. intros H. induction 1 as [|x l S IH F]; cbn [map]; constructor; [exact IH|]. apply Forall_map. eapply Forall_impl; [|exact F]. auto. Qed.
Fixpoint vsize (n : vnode) : nat := match n with VText _ => 1 | VElem _ _ _ _ kids => S (list_sum (map vsize kids)) end.
Lemma forest_sorted : forall ns j, Forall (fun c => StronglySorted before (places_in c)) ns -> StronglySorted before (forest j ns).
Proof.
  induction ns as [|c ns IH]; intros j F; cbn [forest]; [constructor|]. apply Forall_cons_iff in F as [Hc F].
  assert (forall y, In y (forest (S j) ns) -> exists k r, y = k :: r /\ j < k) as Later.
  { intros y Hy. apply in_forest in Hy as (k & p' & c' & -> & _). exists (S j + k), p'. split; [reflexivity|lia]. }
  constructor.
  - apply Sorted_app; [|now apply IH|].
    + apply (Sorted_map before); [|exact Hc]. intros x y H. now apply before_inside.
    + intros x y Hx Hy. apply in_map_iff in Hx as (x' & <- & _). apply Later in Hy as (k & r & -> & Hk). now apply before_sibling.
  - apply Forall_app. split; [|apply Forall_forall; intros y Hy; apply Later in Hy as (k & r & -> & Hk); now apply before_sibling].
    apply Forall_forall. intros y Hy. apply in_map_iff in Hy as (x & <- & Hx). apply before_inside. destruct x as [|k x]; [|apply before_below].
    apply in_places in Hx as (m & [=]).
Qed.
Lemma places_sorted n : StronglySorted before (places_in n).
Proof.
  assert (forall k n, vsize n <= k -> StronglySorted before (places_in n)) as H; [|apply (H (vsize n)); lia].
  induction k as [|k IH]; intros [s|t a ty l kids] Hk; cbn [vsize] in Hk; try (now constructor); [lia|]. rewrite places_forest. apply forest_sorted. apply Forall_forall. intros c Hc. apply IH.
  assert (vsize c <= list_sum (map vsize kids)) as Hle; [|lia]. clear Hk. induction kids as [|d kids IHk]; [destruct Hc|]. cbn [map list_sum fold_right]. change (fold_right Nat.add 0 (map vsize kids)) with (list_sum (map vsize kids)). destruct Hc as [->|Hc]; [lia|]. specialize (IHk Hc). lia.
Qed.
Lemma all_sorted doc : StronglySorted before (all_places doc).
Proof. rewrite all_places_forest. apply forest_sorted. apply Forall_forall. intros c _. apply places_sorted. Qed.
Lemma before_irrefl p : ~ before p p.
Proof. induction p as [|j p IH]; intros H; inversion H; subst; [lia|auto]. Qed.
Lemma before_asym p : forall q, before p q -> ~ before q p.
Proof. induction p as [|j p IH]; intros q H H'; inversion H; subst; inversion H'; subst; try lia. eapply IH; eauto. Qed.
Lemma first_unique P q q' : first_in P q -> first_in P q' -> q = q'.
Proof.
  intros [H1 H2] [H3 H4]. destruct (list_eq_dec Nat.eq_dec q q') as [E|E]; [exact E|]. exfalso.
  apply (before_asym q q'); [apply H2; auto|apply H4; auto].
Qed.
Lemma find_first g : forall l, StronglySorted before l -> forall q, find g l = Some q <-> first_in (fun q => In q l /\ g q = true) q.
Proof.
  intros l S q. assert (forall q, find g l = Some q -> first_in (fun q => In q l /\ g q = true) q) as H.
  { clear q. induction S as [|x l S IH F]; intros q; cbn [find]; [discriminate|]. destruct (g x) eqn:E.
    - intros [= <-]. split; [split; [now left|exact E]|]. intros q' [[->|Hin] _] Hn; [congruence|]. rewrite Forall_forall in F. now apply F.
    - intros H. destruct (IH q H) as [[H1 H2] H3]. split; [split; [now right|exact H2]|]. intros q' [[->|Hin] Hg] Hn; [congruence|]. apply H3; auto. }
  split; [apply H|]. intros Hf. destruct (find g l) as [q'|] eqn:E; [f_equal; eapply first_unique; [apply H; reflexivity|exact Hf]|].
  destruct Hf as [[H1 H2] _]. apply (List.find_none _ _ E) in H1. congruence.
Qed.
Lemma first_ext P Q q : (forall q, P q <-> Q q) -> first_in P q <-> first_in Q q.
Proof. intros H. unfold first_in. rewrite H. split; intros [H1 H2]; (split; [exact H1|]); intros q' Hq; apply H2; now apply H. Qed.
Definition node_b (f : vnode -> bool) (doc : list vnode) (q : place) : bool := match node_at q doc with Some n => f n | None => false end.
Lemma at_iff (f : vnode -> bool) (P : vnode -> Prop) doc q : (forall n, f n = true <-> P n) -> node_b f doc q = true <-> at_place q doc P.
Proof.
  intros H. unfold node_b, at_place. destruct (node_at q doc) as [n|]; split; [|intros (m & [= <-] & Hm); now apply H|discriminate|intros (m & [=] & _)].
  intros Hn. exists n. split; [reflexivity|now apply H].
Qed.
Lemma at_in doc q P : at_place q doc P -> In q (all_places doc).
Proof. intros (n & Hn & _). apply in_all_places. eauto. Qed.
Lemma first_place_iff (f : vnode -> bool) (P : vnode -> Prop) doc q : (forall n, f n = true <-> P n) ->
  first_place f doc = Some q <-> first_in (fun q => at_place q doc P) q.
Proof.
  intros H. unfold first_place. rewrite (find_first _ _ (all_sorted doc)). apply first_ext. intros q'. fold (node_b f doc q'). rewrite (at_iff f P doc q' H).
  split; [tauto|]. intros Ha. split; [eapply at_in; exact Ha|exact Ha].
Qed.

(** ** Outwards *)
Lemma in_outwards p : forall q, In q (outwards p) <-> q <> [] /\ around p q.
Proof.
  induction p as [|j p IH]; intros q; cbn [outwards].
  - split; [intros []|]. intros [Hq (r & Hr)]. destruct q; [congruence|discriminate].
  - rewrite in_app_iff, in_map_iff. split.
    + intros [(x & <- & Hx)|[<-|[]]].
      * apply IH in Hx as [_ (r & ->)]. split; [discriminate|]. now exists r.
      * split; [discriminate|]. now exists p.
    + intros [Hq (r & Hr)]. destruct q as [|k q]; [congruence|]. injection Hr as <- ->. destruct q as [|k q]; [right; now left|]. left. exists (k :: q). split; [reflexivity|]. apply IH. split; [discriminate|]. now exists r.
Qed.
Lemma outwards_sorted p : StronglySorted around (outwards p).
Proof.
  induction p as [|j p IH]; cbn [outwards]; [constructor|]. apply Sorted_app.
  - apply (Sorted_map around); [|exact IH]. intros x y (r & ->). now exists r.
  - constructor; constructor.
  - intros x y Hx [<-|[]]. apply in_map_iff in Hx as (x' & <- & _). now exists x'.
Qed.
Lemma around_antisym p q : around p q -> around q p -> p = q.
Proof.
  intros (r & Hr) (r' & Hr'). rewrite Hr in Hr'. apply (f_equal (@length nat)) in Hr'. rewrite !app_length in Hr'. destruct r as [|x r]; [now rewrite app_nil_r in Hr|]. cbn in Hr'. lia.
Qed.
Lemma innermost_unique P doc p q q' : innermost P doc p q -> innermost P doc p q' -> q = q'.
Proof. intros (A & B & C) (A' & B' & C'). apply around_antisym; auto. Qed.
Lemma nearest_iff (f : vnode -> bool) (P : vnode -> Prop) doc p q : (forall n, f n = true <-> P n) -> nearest f p doc = Some q <-> innermost P doc p q.
Proof.
  intros H. assert (forall l, StronglySorted around l -> forall q, find (node_b f doc) l = Some q -> In q l /\ node_b f doc q = true /\ forall q', In q' l -> node_b f doc q' = true -> around q q') as G.
  { clear q. induction 1 as [|x l S IH F]; intros q; cbn [find]; [discriminate|]. destruct (node_b f doc x) eqn:E.
    - intros [= <-]. split; [now left|]. split; [exact E|]. intros q' [->|Hin] _; [exists []; now rewrite app_nil_r|]. rewrite Forall_forall in F. now apply F.
    - intros Hf. destruct (IH q Hf) as (H1 & H2 & H3). split; [now right|]. split; [exact H2|]. intros q' [->|Hin] Hg; [congruence|]. now apply H3. }
  unfold nearest. fold (node_b f doc). assert (forall q, find (node_b f doc) (outwards p) = Some q -> innermost P doc p q) as H1.
  { clear q. intros q Hf. destruct (G _ (outwards_sorted p) q Hf) as (H1 & H2 & H3). apply in_outwards in H1 as [_ H1]. split; [exact H1|]. split; [now apply (at_iff f P)|].
    intros q' Ha Hp. apply H3; [|now apply (at_iff f P)]. apply in_outwards. split; [|exact Ha]. intros ->. destruct Hp as (m & [=] & _). }
  split; [apply H1|]. intros Hi. destruct (find (node_b f doc) (outwards p)) as [q'|] eqn:E; [f_equal; eapply innermost_unique; [apply H1; reflexivity|exact Hi]|].
  destruct Hi as (Ha & Hp & _). assert (In q (outwards p)) as Hin by (apply in_outwards; split; [intros ->; destruct Hp as (m & [=] & _)|exact Ha]).
  apply (List.find_none _ _ E) in Hin. apply (at_iff f P _ _ H) in Hp. congruence.
Qed.

(** ** Owners and controls *)
Lemma named_place i (f : vnode -> bool) (P : vnode -> Prop) doc : (forall n, f n = true <-> P n) -> forall q,
  match first_place (v_has_id i) doc with Some q => match node_at q doc with Some m => if f m then Some q else None | None => None end | None => None end = Some q <->
  by_id i doc q /\ at_place q doc P.
Proof.
  intros H q. unfold by_id. split.
  - destruct (first_place (v_has_id i) doc) as [q'|] eqn:E; [|discriminate]. destruct (node_at q' doc) as [m|] eqn:En; [|discriminate]. destruct (f m) eqn:Ef; [|discriminate]. intros [= <-].
    split; [apply (first_place_iff _ _ doc q' (id_iff i)); exact E|]. exists m. split; [exact En|now apply H].
  - intros [Hi (m & Hm & Hp)]. apply (first_place_iff _ _ doc q (id_iff i)) in Hi. rewrite Hi, Hm. apply H in Hp. now rewrite Hp.
Qed.
Lemma owner_iff doc p f : form_owner p doc = Some f <-> owner doc p f.
Proof.
  unfold form_owner. destruct (node_at p doc) as [n|] eqn:En; [|split; [discriminate|intros []; congruence]]. destruct (v_attr (bs "form") n) as [i|] eqn:Ea.
  - rewrite (named_place i _ _ doc form_iff). apply attr_iff in Ea. split; [intros [H1 H2]; now apply (owner_named doc p n i f)|].
    intros [n' i' f' Hn Hi H1 H2|n' f' Hn Hl _]; rewrite En in Hn; injection Hn as <-; [|now destruct (Hl i)]. apply attr_iff in Ea, Hi. rewrite Ea in Hi. injection Hi as <-. now split.
  - rewrite (nearest_iff _ _ doc p f form_iff). apply no_attr_iff in Ea. split; [intros H; now apply (owner_around doc p n f)|].
    intros [n' i' f' Hn Hi H1 H2|n' f' Hn Hl H]; rewrite En in Hn; injection Hn as <-; [now destruct (Ea i')|exact H].
Qed.
Lemma node_at_app p : forall doc n r, node_at p doc = Some n -> r <> [] -> node_at (p ++ r) doc = node_at r (v_kids n).
Proof.
  induction p as [|j p IH]; intros doc n r Hn Hr; [discriminate|]. cbn [app]. rewrite node_at_cons by (destruct p; [exact Hr|discriminate]).
  destruct p as [|k p]; [cbn [node_at] in Hn; rewrite Hn; reflexivity|]. rewrite node_at_cons in Hn by discriminate. destruct (nth_error doc j) as [c|]; [|discriminate]. now apply IH.
Qed.
Lemma before_app p q r : before (p ++ q) (p ++ r) <-> before q r.
Proof.
  induction p as [|j p IH]; [reflexivity|]. cbn [app]. rewrite <- IH. split; intros H; [inversion H; subst; [lia|assumption]|now apply before_inside].
Qed.
Lemma control_iff doc q c : labeled_control q doc = Some c <-> control doc q c.
Proof.
  unfold labeled_control. destruct (node_at q doc) as [n|] eqn:En; [|split; [discriminate|intros []; congruence]]. destruct (v_attr (bs "for") n) as [i|] eqn:Ea.
  - rewrite (named_place i _ _ doc labelable_iff). apply attr_iff in Ea. split; [intros [H1 H2]; now apply (control_named doc q n i c)|].
    intros [n' i' c' Hn Hi H1 H2|n' c' Hn Hl _]; rewrite En in Hn; injection Hn as <-; [|now destruct (Hl i)]. apply attr_iff in Ea, Hi. rewrite Ea in Hi. injection Hi as <-. now split.
  - assert (forall r, first_in (fun r => at_place r (v_kids n) can_be_labeled) r <-> first_in (fun c => c <> q /\ around c q /\ at_place c doc can_be_labeled) (q ++ r)) as E.
    { intros r. assert (forall r, at_place r (v_kids n) can_be_labeled <-> q ++ r <> q /\ around (q ++ r) q /\ at_place (q ++ r) doc can_be_labeled) as X.
      { intros r'. unfold at_place. split.
        - intros (m & Hm & Hp). assert (r' <> []) as Hr by (intros ->; discriminate). split; [intros Hx; apply Hr; apply (app_inv_head q); now rewrite app_nil_r|]. split; [now exists r'|]. exists m. split; [|exact Hp]. now rewrite (node_at_app q doc n).
        - intros (Hx & _ & m & Hm & Hp). assert (r' <> []) as Hr by (intros ->; apply Hx; apply app_nil_r). exists m. split; [|exact Hp]. now rewrite (node_at_app q doc n) in Hm. }
      split; intros [H1 H2]; (split; [now apply X|]).
      - intros c' (Hx & (r' & ->) & Ha) Hn. apply before_app. apply H2; [apply X; repeat split; auto; now exists r'|congruence].
      - intros r' Hr Hn. apply (before_app q). apply H2; [now apply X|]. intros Hx. apply app_inv_head in Hx. contradiction. }
    apply no_attr_iff in Ea. split.
    + destruct (first_place labelable (v_kids n)) as [r|] eqn:Er; [|discriminate]. intros [= <-]. apply (control_inside doc q n); auto. apply E. now apply (first_place_iff _ _ _ _ labelable_iff).
    + intros [n' i' c' Hn Hi _ _|n' c' Hn _ H]; rewrite En in Hn; injection Hn as <-; [now destruct (Ea i')|]. destruct H as [H1 H2]. destruct H1 as (Hx & (r & ->) & Ha).
      assert (first_place labelable (v_kids n) = Some r) as ->; [|reflexivity]. apply (first_place_iff _ _ _ _ labelable_iff). apply E. split; [repeat split; auto; now exists r|exact H2].
Qed.

(** ** Activation *)
Definition texts_of (doc : list vnode) (es : list event) : list str := flat_map (fun e => sends (fst e) (snd e) doc) es.
Lemma at_here doc q n P : node_at q doc = Some n -> at_place q doc P -> P n.
Proof. intros H (m & Hm & Hp). rewrite H in Hm. now injection Hm as <-. Qed.
Lemma owner_unique doc p f g : owner doc p f -> owner doc p g -> f = g.
Proof. intros H1 H2. apply owner_iff in H1, H2. congruence. Qed.
Lemma control_unique doc p f g : control doc p f -> control doc p g -> f = g.
Proof. intros H1 H2. apply control_iff in H1, H2. congruence. Qed.
Lemma activation_unique doc q es b es' b' : activation doc q es b -> activation doc q es' b' -> es = es' /\ b = b'.
Proof.
  assert (at_place q doc link -> at_place q doc (fun n => ~ link n /\ submits n /\ enabled n) -> False) as X.
  { intros (n & Hn & Hp) H. apply (at_here _ _ n _ Hn) in H as [H _]. exact (H Hp). }
  intros H H'. destruct H as [Hl|f Hs Ho|Hl Hs]; destruct H' as [Hl'|f' Hs' Ho'|Hl' Hs']; auto; try contradiction; try (exfalso; apply X; assumption).
  - assert (f = f') as -> by (eapply owner_unique; eassumption). auto.
  - exfalso. apply (Hs' f); [|exact Ho]. destruct Hs as (n & Hn & _ & H). now exists n.
  - exfalso. apply (Hs f'); [|exact Ho']. destruct Hs' as (n & Hn & _ & H). now exists n.
Qed.
Lemma activation_ex doc q : exists es, activation doc q es (snd (activate_at q doc)) /\ fst (activate_at q doc) = texts_of doc es.
Proof.
  unfold activate_at. destruct (node_at q doc) as [n|] eqn:En.
  2:{ exists []. split; [|reflexivity]. apply does_nothing; [intros (m & Hm & _); congruence|intros f (m & Hm & _); congruence]. }
  destruct (is_link n) eqn:El.
  { exists []. split; [|reflexivity]. apply follows_link. exists n. split; [exact En|now apply link_iff]. }
  assert (~ link n) as Hl by (intros H; apply link_iff in H; congruence).
  assert (~ at_place q doc link) as Hnl by (intros H; apply Hl; exact (at_here _ _ n _ En H)).
  destruct (submit_button n && negb (v_has (bs "disabled") n)) eqn:Es.
  - apply andb_true_iff in Es as [Es Ee]. apply negb_true_iff in Ee. apply submits_iff in Es. apply enabled_iff in Ee.
    destruct (form_owner q doc) as [f|] eqn:Eo.
    + exists [(bs "submit", f)]. split; [|unfold texts_of, submit_form; cbn [flat_map fst snd]; now rewrite app_nil_r].
      apply owner_iff in Eo. apply submits_form; [|exact Eo]. exists n. auto.
    + exists []. split; [|reflexivity]. apply does_nothing; [exact Hnl|]. intros f _ Ho. apply owner_iff in Ho. congruence.
  - exists []. split; [|reflexivity]. apply does_nothing; [exact Hnl|]. intros f H _. apply (at_here _ _ n _ En) in H as [H1 H2].
    apply submits_iff in H1. apply enabled_iff in H2. rewrite H1, H2 in Es. discriminate.
Qed.

(** ** Clicks *)
Lemma clicked_unique doc p es b es' b' : clicked doc p es b -> clicked doc p es' b' -> es = es' /\ b = b'.
Proof.
  assert (forall q, at_place q doc (tag_is (bs "label")) -> at_place q doc (fun n => ~ tag_is (bs "label") n) -> False) as X.
  { intros q (n & Hn & Hp) H. exact (at_here _ _ n _ Hn H Hp). }
  intros H H'.
  destruct H as [Hn|q es b Hi Hl Ha|q c es b Hi Hl Hc Ha|q Hi Hl Hc]; destruct H' as [Hn'|q' es' b' Hi' Hl' Ha'|q' c' es' b' Hi' Hl' Hc' Ha'|q' Hi' Hl' Hc'];
    auto; try (now destruct (Hn q')); try (now destruct (Hn' q)); assert (q = q') as <- by (eapply innermost_unique; eassumption); try (exfalso; eapply X; eassumption).
  - destruct (activation_unique _ _ _ _ _ _ Ha Ha') as [-> ->]. auto.
  - assert (c = c') as <- by (eapply control_unique; eassumption). destruct (activation_unique _ _ _ _ _ _ Ha Ha') as [-> ->]. auto.
  - now destruct (Hc' c).
  - now destruct (Hc c').
Qed.
Lemma clicked_ex doc p : exists es, clicked doc p es (snd (click p doc)) /\ fst (click p doc) = texts_of doc es.
Proof.
  unfold click. destruct (nearest reacts p doc) as [q|] eqn:Eq.
  2:{ exists [(bs "click", p)]. split; [|reflexivity]. apply click_only. intros q H. apply (nearest_iff _ _ _ _ _ reacts_iff) in H. congruence. }
  apply (nearest_iff _ _ _ _ _ reacts_iff) in Eq. destruct Eq as (A & B & C). destruct B as (n & Hn & Hr). rewrite Hn.
  assert (innermost interactive doc p q) as Hi by (split; [exact A|split; [now exists n|exact C]]).
  destruct (str_eqb (v_tag n) (bs "label")) eqn:El.
  - apply tag_b in El; [|discriminate]. assert (at_place q doc (tag_is (bs "label"))) as Hl by (now exists n).
    destruct (labeled_control q doc) as [c|] eqn:Ec.
    + destruct (activation_ex doc c) as (es & Ha & Ht). destruct (activate_at c doc) as [t l]. cbn [fst snd] in *.
      exists ((bs "click", p) :: (bs "click", c) :: es). split; [|rewrite Ht; reflexivity].
      apply control_iff in Ec. now apply (click_label doc p q c es l).
    + exists [(bs "click", p)]. split; [|reflexivity]. apply (click_bare_label doc p q); auto. intros c Hc. apply control_iff in Hc. congruence.
  - destruct (activation_ex doc q) as (es & Ha & Ht). destruct (activate_at q doc) as [t l]. cbn [fst snd] in *.
    exists ((bs "click", p) :: es). split; [|rewrite Ht; reflexivity].
    apply (click_reacts doc p q es l); auto. exists n. split; [exact Hn|]. intros H. apply tag_b in H; [congruence|discriminate].
Qed.

(** ** Enter *)
Lemma owned_b f doc q : belongs f doc q = true <-> owner doc q f.
Proof.
  unfold belongs, place_eqb. rewrite <- owner_iff. destruct (form_owner q doc) as [g|]; [|split; discriminate].
  destruct (list_eq_dec Nat.eq_dec f g) as [->|H]; split; congruence.
Qed.
Lemma both_iff (h : vnode -> bool) (P : vnode -> Prop) f doc q : (forall n, h n = true <-> P n) ->
  (match node_at q doc with Some m => h m && belongs f doc q | None => false end = true <-> at_place q doc P /\ owner doc q f).
Proof.
  intros H. unfold at_place. destruct (node_at q doc) as [m|].
  - rewrite andb_true_iff, owned_b, H. split; [intros [A B]; split; [now exists m|exact B]|]. intros [(m' & [= <-] & A) B]. auto.
  - split; [discriminate|]. intros [(m & [=] & _) _].
Qed.
Lemma default_iff doc f q :
  find (fun q => match node_at q doc with Some m => submit_button m && belongs f doc q | None => false end) (all_places doc) = Some q <-> default_button doc f q.
Proof.
  rewrite (find_first _ _ (all_sorted doc)). apply first_ext. intros q'. rewrite (both_iff _ _ f doc q' submits_iff).
  split; [tauto|]. intros H. split; [destruct H as [H _]; eapply at_in; exact H|exact H].
Qed.
Lemma sorted_nodup l : StronglySorted before l -> NoDup l.
Proof.
  induction 1 as [|x l S IH F]; constructor; [|exact IH]. intros H. rewrite Forall_forall in F. apply F in H. exact (before_irrefl x H).
Qed.
Lemma only_iff doc f p : at_place p doc line_field -> owner doc p f ->
  Nat.leb (length (filter (fun q => match node_at q doc with Some m => text_field m && belongs f doc q | None => false end) (all_places doc))) 1 = true <-> only_field doc f p.
Proof.
  intros Hp Ho. rewrite Nat.leb_le. set (l := filter _ _).
  assert (forall q, In q l <-> at_place q doc line_field /\ owner doc q f) as Hin.
  { intros q. unfold l. rewrite filter_In, (both_iff _ _ f doc q field_iff). split; [tauto|]. intros H. split; [destruct H as [H _]; eapply at_in; exact H|exact H]. }
  assert (NoDup l) as Hd by (apply NoDup_filter, sorted_nodup, all_sorted).
  assert (In p l) as Hpl by (apply Hin; auto). split.
  - intros Hlen q Hq Hqo. assert (In q l) as Hql by (apply Hin; auto). destruct l as [|x [|y l']]; cbn [length] in Hlen; [destruct Hpl| |lia].
    destruct Hpl as [<-|[]], Hql as [<-|[]]. reflexivity.
  - intros H. destruct l as [|x [|y l']]; cbn [length]; [lia|lia|]. exfalso.
    assert (x = p) by (apply H; apply Hin; now left). assert (y = p) by (apply H; apply Hin; right; now left). subst. inversion Hd as [|? ? Hx _]. apply Hx. now left.
Qed.
Lemma default_unique doc f q q' : default_button doc f q -> default_button doc f q' -> q = q'.
Proof. apply first_unique. Qed.
Lemma entered_unique doc p es b es' b' : entered doc p es b -> entered doc p es' b' -> es = es' /\ b = b'.
Proof.
  intros H H'.
  destruct H as [f q Hl Ho Hd He|f Hl Ho Hd He|Hn]; destruct H' as [f' q' Hl' Ho' Hd' He'|f' Hl' Ho' Hd' He'|Hn']; auto;
    try (assert (f = f') as <- by (eapply owner_unique; eassumption)).
  - assert (q = q') as <- by (eapply default_unique; eassumption). auto.
  - now destruct (Hd' q).
  - exfalso. destruct (Hn' f Hl Ho) as [(q' & H1 & H2)|[H1 _]]; [|now destruct (H1 q)]. assert (q = q') as <- by (eapply default_unique; eassumption). contradiction.
  - now destruct (Hd q').
  - auto.
  - exfalso. destruct (Hn' f Hl Ho) as [(q' & H1 & H2)|[_ H2]]; [now destruct (Hd q')|contradiction].
  - exfalso. destruct (Hn f' Hl' Ho') as [(q & H1 & H2)|[H1 _]]; [|now destruct (H1 q')]. assert (q = q') as <- by (eapply default_unique; eassumption). contradiction.
  - exfalso. destruct (Hn f' Hl' Ho') as [(q & H1 & H2)|[_ H2]]; [now destruct (Hd' q)|contradiction].
Qed.
Lemma entered_ex doc p : exists es, entered doc p es (snd (press_enter p doc)) /\ fst (press_enter p doc) = texts_of doc es.
Proof.
  unfold press_enter. destruct (node_at p doc) as [n|] eqn:En.
  2:{ exists []. split; [|reflexivity]. apply enter_nothing. intros f (m & Hm & _). congruence. }
  destruct (text_field n) eqn:Et.
  2:{ exists []. split; [|reflexivity]. apply enter_nothing. intros f H. apply (at_here _ _ n _ En) in H. apply field_iff in H. congruence. }
  apply field_iff in Et. assert (at_place p doc line_field) as Hl by (now exists n).
  destruct (form_owner p doc) as [f|] eqn:Eo.
  2:{ exists []. split; [|reflexivity]. apply enter_nothing. intros f _ H. apply owner_iff in H. congruence. }
  apply owner_iff in Eo. assert (forall g, owner doc p g -> g = f) as Hu by (intros g Hg; eapply owner_unique; eassumption).
  destruct (find _ (all_places doc)) as [q|] eqn:Ef.
  - apply default_iff in Ef. destruct (node_at q doc) as [m|] eqn:Em.
    2:{ exfalso. destruct Ef as [[(m & Hm & _) _] _]. congruence. }
    destruct (v_has (bs "disabled") m) eqn:Ed.
    + exists []. split; [|reflexivity]. apply enter_nothing. intros g _ Hg. rewrite (Hu g Hg). left. exists q. split; [exact Ef|].
      intros H. apply (at_here _ _ m _ Em) in H. apply enabled_iff in H. congruence.
    + exists [(bs "click", q); (bs "submit", f)]. split; [|unfold submit_form, texts_of; cbn [flat_map fst snd]; now rewrite app_nil_r].
      apply (enter_button doc p f q); auto. exists m. split; [exact Em|now apply enabled_iff].
  - assert (forall q, ~ default_button doc f q) as Hno by (intros q Hq; apply default_iff in Hq; congruence).
    destruct (Nat.leb _ 1) eqn:Elb.
    + apply (only_iff doc f p Hl Eo) in Elb. exists [(bs "submit", f)]. split; [|unfold submit_form, texts_of; cbn [flat_map fst snd]; now rewrite app_nil_r].
      now apply (enter_alone doc p f).
    + exists []. split; [|reflexivity]. apply enter_nothing. intros g _ Hg. rewrite (Hu g Hg). right. split; [exact Hno|].
      intros H. apply (only_iff doc f p Hl Eo) in H. congruence.
Qed.

(** ** The theorems *)
(** A click sends exactly the texts that the handlers of the events it sets off send, in order, and leaves the page exactly when
    it follows a link or submits a form; the document stays. *)
Theorem C118_click_exactly : forall (p : place) (doc doc' : list vnode) (texts : list str) (leaves : bool),
  gesture_act (ClicksOn p) doc = (doc', texts, leaves) <->
  doc' = doc /\ exists es, clicked doc p es leaves /\ texts = flat_map (fun e => sends (fst e) (snd e) doc) es.
Proof.
  intros p doc doc' texts leaves. cbn [gesture_act]. destruct (clicked_ex doc p) as (es & Hc & Ht). destruct (click p doc) as [t l]. cbn [fst snd] in *. split.
  - intros [= <- <- <-]. split; [reflexivity|]. exists es. auto.
  - intros (-> & es' & Hc' & ->). destruct (clicked_unique _ _ _ _ _ _ Hc Hc') as [-> ->]. rewrite Ht. reflexivity.
Qed.
Print Assumptions C118_click_exactly.
(** So does the Enter key. *)
Theorem C118_enter_exactly : forall (p : place) (doc doc' : list vnode) (texts : list str) (leaves : bool),
  gesture_act (Enters p) doc = (doc', texts, leaves) <->
  doc' = doc /\ exists es, entered doc p es leaves /\ texts = flat_map (fun e => sends (fst e) (snd e) doc) es.
Proof.
  intros p doc doc' texts leaves. cbn [gesture_act]. destruct (entered_ex doc p) as (es & Hc & Ht). destruct (press_enter p doc) as [t l]. cbn [fst snd] in *. split.
  - intros [= <- <- <-]. split; [reflexivity|]. exists es. auto.
  - intros (-> & es' & Hc' & ->). destruct (entered_unique _ _ _ _ _ _ Hc Hc') as [-> ->]. rewrite Ht. reflexivity.
Qed.
Print Assumptions C118_enter_exactly.
(** A form with a label, two fields and a button that can be switched off, and a link below. *)
Definition leave_demo (off : bool) : list vnode :=
  [VElem (bs "form") [] None [(bs "submit", bs "send")]
     [VElem (bs "label") [] None [] [VText (bs "Name"); VElem (bs "input") [(bs "type", bs "TEXT")] None [] []];
      VElem (bs "input") [] None [] [];
      VElem (bs "button") (if off then [(bs "disabled", [])] else []) None [(bs "click", bs "press")] [VText (bs "Send")]];
   VElem (bs "a") [(bs "href", bs "/")] None [] [VText (bs "Home")]].
Example C118_exactly_example :
  clicked (leave_demo false) [0; 2; 0] [(bs "click", [0; 2; 0]); (bs "submit", [0])] true /\
  gesture_act (ClicksOn [0; 2; 0]) (leave_demo false) = (leave_demo false, [bs "{""listener"":""press""}"; bs "{""listener"":""send""}"], true) /\
  entered (leave_demo false) [0; 1] [(bs "click", [0; 2]); (bs "submit", [0])] true /\
  entered (leave_demo true) [0; 1] [] false /\
  clicked (leave_demo false) [0; 0; 0] [(bs "click", [0; 0; 0]); (bs "click", [0; 0; 1])] false /\
  clicked (leave_demo true) [1; 0] [(bs "click", [1; 0])] true.
Proof.
  assert (forall f P doc q, (forall n, f n = true <-> P n) -> node_b f doc q = true -> at_place q doc P) as At by (intros f P doc q H; apply (at_iff f P doc q H)).
  assert (forall (f : vnode -> bool) (P : vnode -> Prop) n, (f n = true <-> P n) -> f n = false -> ~ P n) as No by (intros f P n H E Hp; apply H in Hp; congruence).
  split; [|split; [vm_compute; reflexivity|split; [|split; [|split]]]].
  - apply (click_reacts _ _ [0; 2]); [apply (nearest_iff _ _ _ _ _ reacts_iff); reflexivity| |apply submits_form; [|apply owner_iff; reflexivity]].
    + eexists. split; [reflexivity|]. intros (a & ty & l & k & [=]).
    + eexists. split; [reflexivity|]. split; [apply (No is_link); [apply link_iff|reflexivity]|]. split; [apply submits_iff; reflexivity|apply enabled_iff; reflexivity].
  - apply enter_button; [apply (At text_field); [apply field_iff|reflexivity]|apply owner_iff; reflexivity|apply default_iff; reflexivity|].
    eexists. split; [reflexivity|]. apply enabled_iff. reflexivity.
  - apply enter_nothing. intros f _ Hf. left. exists [0; 2]. assert (f = [0]) as -> by (apply (owner_unique _ _ _ _ Hf); apply owner_iff; reflexivity).
    split; [apply default_iff; reflexivity|]. intros (n & [= <-] & H). apply enabled_iff in H. discriminate.
  - apply (click_label _ _ [0; 0]); [apply (nearest_iff _ _ _ _ _ reacts_iff); reflexivity| |apply control_iff; reflexivity|].
    + eexists. split; [reflexivity|]. now eexists _, _, _, _.
    + apply does_nothing; [intros (n & [= <-] & H); apply link_iff in H; discriminate|]. intros f (n & [= <-] & H & _). apply submits_iff in H. discriminate.
  - apply (click_reacts _ _ [1]); [apply (nearest_iff _ _ _ _ _ reacts_iff); reflexivity| |apply follows_link; apply (At is_link); [apply link_iff|reflexivity]].
    eexists. split; [reflexivity|]. intros (a & ty & l & k & [=]).
Qed.
