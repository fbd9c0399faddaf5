(** C85: the costmap node builds exactly the layers it is configured with, or does not start. *)
From Coq Require Import Reals ZArith List String Bool Lia Lra.
From Verif Require Import Common CSpace CSpaceProps Inflate Layers LayersProofs LayersRun LayersSync LayersProps Polygon PolygonProofs PolygonProps ClearMap Overlay LayerConfig.
Import ListNotations.
Local Open Scope string_scope.
Local Open Scope list_scope.

(** *** Specification: what a configuration means *)
(** The member [k] of a struct; [None] if there is none. *)
Definition field (e : xv) (k : string) : option xv := match e with XStruct m => find_key m k | _ => None end.
(** Nothing is written there. *)
Definition unset (v : option xv) : Prop := v = None \/ v = Some XInvalid.
(** A length: the number written there, or 0 if there is none. *)
Definition reads_length (v : option xv) (r : R) : Prop := v = Some (XDouble (Fin r)) \/ unset v /\ r = 0%R.
Definition reads_int (default : Z) (v : option xv) (z : Z) : Prop := v = Some (XInt z) \/ v = None /\ z = default \/ v = Some XInvalid /\ z = 0%Z.
Definition reads_flag (v : option xv) (b : bool) : Prop := v = Some (XBool b) \/ unset v /\ b = false.
(** A footprint is a list of at least three vertices, each a list with its two coordinates (one left out is 0); the outline is closed. *)
Definition reads_coordinate (l : list xv) (i : nat) (d : num) : Prop :=
  nth_error l i = Some (XDouble d) \/ (nth_error l i = None \/ nth_error l i = Some XInvalid) /\ d = Fin 0.
Inductive reads_vertex : xv -> num * num -> Prop :=
| rv_list l x y : reads_coordinate l 0 x -> reads_coordinate l 1 y -> reads_vertex (XArray l) (x, y)
| rv_unset : reads_vertex XInvalid (Fin 0, Fin 0).
Inductive reads_outline : xv -> list (num * num) -> Prop :=
| ro_list l p ps : (3 <= length l)%nat -> Forall2 reads_vertex l (p :: ps) -> reads_outline (XArray l) (p :: ps ++ [p]).
(** Margins that make sense. *)
Definition margins (e s : R) (c : Z) : Prop := (0 <= e)%R /\ (0 <= s)%R /\ (0 <= c < 100)%Z.
Definition reads_margins (e : xv) (d : draw) : Prop :=
  reads_length (field e "linear_expand") (d_expand d) /\ reads_length (field e "linear_spread") (d_spread d) /\
  reads_int 0 (field e "linear_spread_min_cost") (d_min d) /\ margins (d_expand d) (d_spread d) (d_min d).
(** The classes of layers and their parameters. *)
Inductive reads_class (fp e : xv) : string -> lclass -> Prop :=
| rc_foot d f : reads_margins e d -> f = match field e "footprint" with Some f => f | None => fp end ->
    reads_outline f (d_poly d) -> reads_flag (field e "keep_unknown") (d_keep d) -> reads_class fp e "Costmap3dLayerFootprint" (LFoot d)
| rc_plain d : reads_margins e d -> d_poly d = [(Fin 0, Fin 0); (Fin 0, Fin 0); (Fin 0, Fin 0)] -> d_keep d = false -> reads_class fp e "Costmap3dLayerPlain" (LPlain d)
| rc_stop : reads_class fp e "Costmap3dLayerStopPropagation" LStop
| rc_unknown z : reads_int (-1) (field e "unknown_cost") z -> reads_class fp e "Costmap3dLayerUnknownHandle" (LUnknown (i8 z)).
Inductive reads_mode : option xv -> bool -> Prop :=
| rm_overwrite : reads_mode (Some (XString "overwrite")) true
| rm_max : reads_mode (Some (XString "max")) false
| rm_other v : (forall s, v <> Some (XString s)) -> reads_mode v false.
(** One entry of a list of layers; the footprint of the node stands in for a missing one. *)
Record reads_layer (fp e : xv) (l : lay) : Prop := {
  rl_struct : exists m, e = XStruct m;
  rl_name : exists t, y_topic l = Some t /\ (field e "name" = Some (XString t) \/ unset (field e "name") /\ t = "");
  rl_mode : reads_mode (field e "overlay_mode") (y_overwrite l);
  rl_class : exists t, field e "type" = Some (XString t) /\ reads_class fp e t (y_class l) }.
(** A list of layers: at least one, in the order of the list. *)
Definition reads_layers (fp xml : xv) (ls : list lay) : Prop := exists l, xml = XArray l /\ l <> [] /\ Forall2 (reads_layer fp) l ls.
(** The overlay of the single layer mode: the footprint and the margins of the node, but no minimum cost. *)
Definition single_layer (p : node_params) (fp : xv) (l : lay) : Prop :=
  exists d, l = Lay (LFoot d) (String.eqb (n_overlay p) "overwrite") (Some "map_overlay") /\ (n_overlay p = "overwrite" \/ n_overlay p = "max") /\
  n_expand p = Fin (d_expand d) /\ n_spread p = Fin (d_spread d) /\ d_min d = 0%Z /\ reads_outline fp (d_poly d) /\ d_keep d = false.
(** The whole stack: root, static layers, static output, layers, update output. *)
Record reads_node (p : node_params) (ang : Z) (root : draw) (ls : list lay) : Prop := {
  rn_ang : ang = n_ang p /\ (0 < ang)%Z;
  rn_stack : exists fp st dy, n_footprint p = Some fp /\ ls = st ++ [Lay LStatic false None] ++ dy ++ [Lay LUpdate false None] /\
    (n_expand p = Fin (d_expand root) /\ n_spread p = Fin (d_spread root) /\ d_min root = n_min p /\ margins (d_expand root) (d_spread root) (d_min root) /\
     reads_outline fp (d_poly root) /\ d_keep root = false) /\
    match n_static p with Some xml => reads_layers fp xml st | None => st = [] end /\
    match n_layers p with Some xml => reads_layers fp xml dy | None => exists l, dy = [l] /\ single_layer p fp l end }.

(** *** Proofs *)
Lemma andthen_some A B (x : option A) (f : A -> option B) b : andthen x f = Some b <-> exists a, x = Some a /\ f a = Some b.
Proof. destruct x as [a|]; cbn; split; [eauto|intros (a' & E & H); congruence|discriminate|intros (a & E & _); discriminate]. Qed.
Lemma each_iff A B (f : A -> option B) (Q : A -> B -> Prop) l bs : (forall a b, In a l -> (f a = Some b <-> Q a b)) -> each f l = Some bs <-> Forall2 Q l bs.
Proof.
  revert bs. induction l as [|a l IH]; intros bs H; cbn [each].
  - split; [intros E; assert (bs = []) as -> by congruence; constructor|intros E; inversion E; reflexivity].
  - rewrite andthen_some. split.
    + intros (b & Eb & E). apply andthen_some in E as (bs' & E' & E). assert (bs = b :: bs') as -> by congruence.
      constructor; [apply H; [left; reflexivity|exact Eb]|]. apply IH; [|exact E']. intros; apply H; right; assumption.
    + intros E. inversion E as [|? b ? bs' Q1 Q2]; subst. exists b. split; [apply H; [left; reflexivity|exact Q1]|].
      apply IH in Q2; [|intros; apply H; right; assumption]. rewrite Q2. reflexivity.
Qed.
Lemma coordinate_iff l i d : match nth i l XInvalid with XDouble d => Some d | XInvalid => Some (Fin 0) | _ => None end = Some d <-> reads_coordinate l i d.
Proof.
  unfold reads_coordinate. destruct (nth_error l i) as [v|] eqn:E.
  - rewrite (nth_error_nth l i XInvalid E). destruct v; split; intros H; try discriminate H; try (destruct H as [H|[[H|H] H']]; congruence);
      first [left; congruence|right; split; [right; reflexivity|congruence]].
  - apply nth_error_None in E. rewrite nth_overflow by exact E. split; intros H; [right; split; [left; reflexivity|congruence]|destruct H as [H|[_ ->]]; [discriminate H|reflexivity]].
Qed.
Lemma vertex_iff v q : vertex v = Some q <-> reads_vertex v q.
Proof.
  destruct q as [x y]. unfold vertex. rewrite andthen_some. split.
  - intros (a & Ea & E). apply andthen_some in E as (x' & Ex & E). apply andthen_some in E as (b & Eb & E). apply andthen_some in E as (y' & Ey & E).
    assert (x' = x /\ y' = y) as [-> ->] by (split; congruence). destruct v; cbn in Ea, Eb; try discriminate.
    + assert (a = XInvalid) as -> by congruence. assert (b = XInvalid) as -> by congruence. cbn in Ex, Ey. assert (x = Fin 0) as -> by congruence. assert (y = Fin 0) as -> by congruence. constructor.
    + constructor; apply coordinate_iff; [assert (nth 0 l XInvalid = a) as -> by congruence|assert (nth 1 l XInvalid = b) as -> by congruence]; assumption.
  - intros H. inversion H as [l ? ? Hx Hy|]; subst.
    + exists (nth 0 l XInvalid). split; [reflexivity|]. apply coordinate_iff in Hx, Hy. unfold as_double at 1. rewrite Hx. cbn [andthen at_index]. unfold as_double. rewrite Hy. reflexivity.
    + exists XInvalid. split; reflexivity.
Qed.
Lemma outline_iff v ps : polygon_xml v = Some ps <-> reads_outline v ps.
Proof.
  unfold polygon_xml. split.
  - destruct v; try discriminate. destruct (length l <? 3)%nat eqn:L; [discriminate|]. apply Nat.ltb_ge in L. intros E. apply andthen_some in E as (qs & E & E').
    apply (each_iff _ _ vertex reads_vertex) in E; [|intros; apply vertex_iff]. destruct qs as [|q qs]; [inversion E; subst; cbn in L; lia|].
    assert (ps = q :: qs ++ [q]) as -> by (cbn [firstn app] in E'; congruence). constructor; assumption.
  - intros H. inversion H as [l p qs L F]; subst. apply Nat.ltb_ge in L. rewrite L. apply (each_iff _ _ vertex reads_vertex) in F; [|intros; apply vertex_iff]. rewrite F. reflexivity.
Qed.
Lemma expansion_iff e s c x : expansion e s c = Some x <-> exists e' s', e = Fin e' /\ s = Fin s' /\ x = (e', s', c) /\ margins e' s' c.
Proof.
  unfold expansion, margins. split.
  - destruct e as [e|]; [|discriminate]. destruct s as [s|]; [|discriminate]. destruct (Rle_dec 0 e); [|discriminate]. destruct (Rle_dec 0 s); [|discriminate]. cbn [andb].
    destruct ((0 <=? c)%Z && (c <? 100)%Z) eqn:C; [|discriminate]. intros E. exists e, s. repeat split; try assumption; try congruence; apply andb_true_iff in C as [C1 C2]; lia.
  - intros (e' & s' & -> & -> & -> & E & S & C). destruct (Rle_dec 0 e'); [|contradiction]. destruct (Rle_dec 0 s'); [|contradiction]. cbn [andb]. replace ((0 <=? c)%Z && (c <? 100)%Z) with true by lia. reflexivity.
Qed.
Lemma key_struct m k : at_key (XStruct m) k = Some (match field (XStruct m) k with Some v => v | None => XInvalid end).
Proof. reflexivity. Qed.
Lemma has_struct m k : has_member (XStruct m) k = match field (XStruct m) k with Some _ => true | None => false end.
Proof. reflexivity. Qed.
Lemma length_iff v r : as_double (match v with Some v => v | None => XInvalid end) = Some (Fin r) <-> reads_length v r.
Proof.
  unfold reads_length, unset. destruct v as [[]|]; cbn; split; intros H; try discriminate H; try (destruct H as [H|[[H|H] H']]; congruence);
    first [left; congruence|right; split; [first [left; reflexivity|right; reflexivity]|congruence]].
Qed.
Lemma int_iff d v z : (if match v with Some _ => true | None => false end then as_int (match v with Some v => v | None => XInvalid end) else Some d) = Some z <-> reads_int d v z.
Proof.
  unfold reads_int. destruct v as [[]|]; cbn; split; intros H; try discriminate H; try (destruct H as [H|[[H H']|[H H']]]; congruence);
    first [left; congruence|right; left; split; congruence|right; right; split; congruence].
Qed.
Lemma flag_iff v b : (if match v with Some _ => true | None => false end then as_bool (match v with Some v => v | None => XInvalid end) else Some false) = Some b <-> reads_flag v b.
Proof.
  unfold reads_flag, unset. destruct v as [[]|]; cbn; split; intros H; try discriminate H; try (destruct H as [H|[[H|H] H']]; congruence);
    first [left; congruence|right; split; [first [left; reflexivity|right; reflexivity]|congruence]].
Qed.
(** Adding the footprint changes no other member. *)
Lemma field_with fp m k : field (with_footprint fp (XStruct m)) k =
  if String.eqb "footprint" k then Some (match field (XStruct m) "footprint" with Some f => f | None => fp end) else field (XStruct m) k.
Proof.
  unfold with_footprint. rewrite has_struct. destruct (field (XStruct m) "footprint") as [f|] eqn:E.
  - destruct (String.eqb_spec "footprint" k) as [<-|N]; [exact E|reflexivity].
  - cbn [field find_key]. reflexivity.
Qed.
Lemma with_is_struct fp m : exists m', with_footprint fp (XStruct m) = XStruct m'.
Proof. unfold with_footprint. destruct (has_member _ _); eexists; reflexivity. Qed.
Lemma margins_iff e m x : e = XStruct m -> load_expansion e = Some x <-> exists d, x = (d_expand d, d_spread d, d_min d) /\ reads_margins e d.
Proof.
  intros ->. unfold load_expansion, reads_margins. rewrite andthen_some. split.
  - intros (c & Ec & E). rewrite has_struct in Ec. rewrite !key_struct in *. cbn [andthen] in Ec, E. apply int_iff in Ec.
    apply andthen_some in E as (ne & Ee & E). apply andthen_some in E as (ns & Es & E). apply expansion_iff in E as (e' & s' & -> & -> & -> & M).
    exists (Draw e' s' c [] false). split; [reflexivity|]. apply length_iff in Ee, Es. split; [exact Ee|]. split; [exact Es|]. split; [exact Ec|exact M].
  - intros (d & -> & He & Hs & Hc & M). exists (d_min d). rewrite has_struct, !key_struct. cbn [andthen]. apply int_iff in Hc. split; [exact Hc|].
    apply length_iff in He, Hs. rewrite He. cbn [andthen]. rewrite Hs. cbn [andthen]. apply expansion_iff. exists (d_expand d), (d_spread d). auto.
Qed.
Lemma margins_ext e e' d : field e "linear_expand" = field e' "linear_expand" -> field e "linear_spread" = field e' "linear_spread" ->
  field e "linear_spread_min_cost" = field e' "linear_spread_min_cost" -> reads_margins e d -> reads_margins e' d.
Proof. unfold reads_margins. intros -> -> ->. auto. Qed.
Lemma margins_draw e d d' : d_expand d = d_expand d' -> d_spread d = d_spread d' -> d_min d = d_min d' -> reads_margins e d -> reads_margins e d'.
Proof. unfold reads_margins. intros -> -> ->. auto. Qed.
Lemma footprint_iff m d : load_footprint (XStruct m) = Some d <->
  reads_margins (XStruct m) d /\ reads_outline (match field (XStruct m) "footprint" with Some f => f | None => XInvalid end) (d_poly d) /\ reads_flag (field (XStruct m) "keep_unknown") (d_keep d).
Proof.
  unfold load_footprint. rewrite andthen_some. split.
  - intros (x & Ex & E). apply (margins_iff _ m) in Ex as (d0 & -> & M); [|reflexivity]. rewrite !key_struct in E. cbn [andthen fst snd] in E.
    apply andthen_some in E as (fp & Ef & E). apply andthen_some in E as (k & Ek & E). rewrite has_struct in Ek. apply flag_iff in Ek. apply outline_iff in Ef.
    assert (d = Draw (d_expand d0) (d_spread d0) (d_min d0) fp k) as -> by congruence. cbn [d_poly d_keep].
    split; [|split; assumption]. revert M. apply margins_draw; reflexivity.
  - intros (M & O & F). exists (d_expand d, d_spread d, d_min d). split; [apply (margins_iff _ m); [reflexivity|]; exists d; auto|].
    rewrite !key_struct. cbn [andthen fst snd]. apply outline_iff in O. rewrite O. cbn [andthen]. rewrite has_struct. apply flag_iff in F. rewrite F. cbn [andthen]. destruct d; reflexivity.
Qed.
Lemma class_iff fp m t c : load_class t (with_footprint fp (XStruct m)) = Some c <-> reads_class fp (XStruct m) t c.
Proof.
  destruct (with_is_struct fp m) as [m' Em].
  assert (Fk : forall k, field (XStruct m') k = if String.eqb "footprint" k then Some (match field (XStruct m) "footprint" with Some f => f | None => fp end) else field (XStruct m) k) by (intros k; rewrite <- Em; apply field_with).
  assert (Fe : field (XStruct m') "linear_expand" = field (XStruct m) "linear_expand") by (rewrite Fk; reflexivity).
  assert (Fs : field (XStruct m') "linear_spread" = field (XStruct m) "linear_spread") by (rewrite Fk; reflexivity).
  assert (Fc : field (XStruct m') "linear_spread_min_cost" = field (XStruct m) "linear_spread_min_cost") by (rewrite Fk; reflexivity).
  assert (Fu : field (XStruct m') "keep_unknown" = field (XStruct m) "keep_unknown") by (rewrite Fk; reflexivity).
  assert (Fz : field (XStruct m') "unknown_cost" = field (XStruct m) "unknown_cost") by (rewrite Fk; reflexivity).
  assert (Ff : field (XStruct m') "footprint" = Some (match field (XStruct m) "footprint" with Some f => f | None => fp end)) by (rewrite Fk; reflexivity).
  rewrite Em. unfold load_class. split.
  - destruct (String.eqb_spec t "Costmap3dLayerFootprint") as [->|N1].
    { intros E. apply andthen_some in E as (d & E & E'). assert (c = LFoot d) as -> by congruence. apply footprint_iff in E as (M & O & F). rewrite Ff in O. rewrite Fu in F.
      econstructor; [|reflexivity|exact O|exact F]. revert M. apply margins_ext; assumption. }
    destruct (String.eqb_spec t "Costmap3dLayerPlain") as [->|N2].
    { intros E. apply andthen_some in E as (d & E & E'). assert (c = LPlain d) as -> by congruence. apply andthen_some in E as (x & Ex & E). apply (margins_iff _ m') in Ex as (d0 & -> & M); [|reflexivity].
      cbn [fst snd] in E. assert (d = Draw (d_expand d0) (d_spread d0) (d_min d0) (repeat (Fin 0, Fin 0) 3) false) as -> by congruence.
      constructor; [|reflexivity|reflexivity]. apply (margins_ext (XStruct m')); [exact Fe|exact Fs|exact Fc|]. revert M. apply margins_draw; reflexivity. }
    destruct (String.eqb_spec t "Costmap3dLayerStopPropagation") as [->|N3]; [intros E; assert (c = LStop) as -> by congruence; constructor|].
    destruct (String.eqb_spec t "Costmap3dLayerUnknownHandle") as [->|N4]; [|discriminate].
    intros E. apply andthen_some in E as (z & E & E'). assert (c = LUnknown z) as -> by congruence. unfold load_unknown in E. rewrite has_struct, key_struct, Fz in E. cbn [andthen] in E.
    destruct (field (XStruct m) "unknown_cost") as [v|] eqn:Ev.
    + apply andthen_some in E as (y & Ey & E). assert (z = i8 y) as -> by congruence. constructor. rewrite Ev. apply int_iff. exact Ey.
    + assert (z = i8 (-1)) as -> by (assert (z = (-1)%Z) by congruence; subst; reflexivity). constructor. rewrite Ev. right. left. split; reflexivity.
  - intros H. inversion H as [d f M -> O F|d M Dp Dk| |z I]; subst.
    + cbn [String.eqb Ascii.eqb Bool.eqb]. assert (load_footprint (XStruct m') = Some d) as ->; [|reflexivity]. apply footprint_iff. rewrite Ff, Fu. split; [|auto]. revert M. apply margins_ext; symmetry; assumption.
    + cbn [String.eqb Ascii.eqb Bool.eqb]. unfold load_plain. assert (load_expansion (XStruct m') = Some (d_expand d, d_spread d, d_min d)) as ->.
      { apply (margins_iff _ m'); [reflexivity|]. exists d. split; [reflexivity|]. revert M. apply margins_ext; symmetry; assumption. }
      cbn [andthen fst snd repeat]. rewrite <- Dp, <- Dk. destruct d; reflexivity.
    + reflexivity.
    + cbn [String.eqb Ascii.eqb Bool.eqb]. unfold load_unknown. rewrite has_struct, key_struct, Fz. cbn [andthen]. apply int_iff in I. destruct (field (XStruct m) "unknown_cost") as [v|].
      * rewrite I. reflexivity.
      * assert (z = (-1)%Z) as -> by congruence. reflexivity.
Qed.
Lemma mode_iff v b : match match v with Some v => v | None => XInvalid end with XString s => overlay_mode s | _ => Some false end = Some b <-> reads_mode v b.
Proof.
  destruct v as [[]|].
  5: { unfold overlay_mode. destruct (String.eqb_spec s "overwrite") as [->|N]; [split; intros H; [assert (b = true) as -> by congruence; constructor|inversion H as [| |? Q]; [reflexivity|exfalso; exact (Q _ eq_refl)]]|].
       destruct (String.eqb_spec s "max") as [->|N']; [split; intros H; [assert (b = false) as -> by congruence; constructor|inversion H as [| |? Q]; reflexivity]|].
       split; [discriminate|]. intros H. inversion H as [| |? Q]; subst; [contradiction|contradiction|exfalso; exact (Q _ eq_refl)]. }
  all: split; intros H; [assert (b = false) as -> by congruence; apply rm_other; intros s; discriminate|inversion H; subst; reflexivity].
Qed.
Lemma layer_iff fp e l : add_layer fp e = Some l <-> reads_layer fp e l.
Proof.
  unfold add_layer. rewrite andthen_some. split.
  - intros (vn & En & E). apply andthen_some in E as (name & Es & E). apply andthen_some in E as (vo & Eo & E). apply andthen_some in E as (mode & Em & E). apply andthen_some in E as (vt & Et & E). apply andthen_some in E as (t & Ett & E). apply andthen_some in E as (c & Ec & E).
    assert (l = Lay c mode (Some name)) as -> by congruence. destruct vt; try discriminate Ett. assert (s = t) as -> by congruence.
    destruct e; try discriminate Et. cbn [at_key] in En, Eo, Et.
    fold (field (XStruct m) "name") in En. change (find_key m "overlay_mode") with (field (XStruct m) "overlay_mode") in Eo.
    apply class_iff in Ec. split; cbn [y_class y_overwrite y_topic].
    + eexists; reflexivity.
    + exists name. split; [reflexivity|]. change (find_key m "name") with (field (XStruct m) "name") in En. unfold unset. destruct (field (XStruct m) "name") as [v|].
      * assert (vn = v) as -> by congruence. destruct v; try discriminate Es; cbn in Es; [right; split; [right; reflexivity|congruence]|left; congruence].
      * assert (vn = XInvalid) as -> by congruence. right. split; [left; reflexivity|cbn in Es; congruence].
    + apply mode_iff. assert (vo = match field (XStruct m) "overlay_mode" with Some x => x | None => XInvalid end) as -> by congruence. exact Em.
    + exists t. split; [|exact Ec]. unfold field. destruct (find_key m "type") as [v|]; congruence.
  - intros [(m & ->) (t & Ht & Hn) Hm (ty & Hy & Hc)]. destruct l as [c mode topic]. cbn [y_class y_overwrite y_topic] in *. subst topic.
    eexists. split; [apply key_struct|]. rewrite !key_struct. cbn [andthen].
    assert (as_string (match field (XStruct m) "name" with Some v => v | None => XInvalid end) = Some t) as ->. { destruct Hn as [->|[[->| ->] ->]]; reflexivity. }
    cbn [andthen]. apply mode_iff in Hm. rewrite Hm. cbn [andthen]. rewrite Hy. cbn [andthen]. apply class_iff in Hc. rewrite Hc. reflexivity.
Qed.
Lemma layers_iff fp xml ls : add_layers fp xml = Some ls <-> reads_layers fp xml ls.
Proof.
  unfold add_layers, reads_layers. split.
  - destruct xml; try discriminate. destruct (length l <? 1)%nat eqn:L; [discriminate|]. apply Nat.ltb_ge in L. intros E. exists l. split; [reflexivity|]. split; [intros ->; cbn in L; lia|].
    apply (each_iff _ _ _ (reads_layer fp)) in E; [exact E|]. intros; apply layer_iff.
  - intros (l & -> & N & F). destruct (length l <? 1)%nat eqn:L; [apply Nat.ltb_lt in L; destruct l; [contradiction|cbn in L; lia]|]. apply (each_iff _ _ _ (reads_layer fp)); [intros; apply layer_iff|exact F].
Qed.
Lemma single_iff p fp dy : n_layers p = None -> margins match n_expand p with Fin e => e | _ => -1 end match n_spread p with Fin s => s | _ => -1 end 0 ->
  dynamic_layers p fp = Some dy <-> exists l, dy = [l] /\ single_layer p fp l.
Proof.
  intros N M. unfold dynamic_layers. rewrite N, andthen_some. set (xml := XStruct _). split.
  - intros (mode & Em & E). apply andthen_some in E as (d & Ed & E). eexists. split; [symmetry; injection E; intros Q; exact Q|].
    apply footprint_iff in Ed as ((He & Hs & Hc & _) & O & F). cbn in He, Hs, Hc, O, F. exists d.
    assert (Mo : (n_overlay p = "overwrite" \/ n_overlay p = "max") /\ mode = String.eqb (n_overlay p) "overwrite").
    { unfold overlay_mode in Em. destruct (String.eqb_spec (n_overlay p) "overwrite") as [->|N1]; [split; [left; reflexivity|congruence]|]. destruct (String.eqb_spec (n_overlay p) "max") as [->|N2]; [split; [right; reflexivity|congruence]|discriminate]. }
    destruct Mo as [Mo ->]. split; [reflexivity|]. split; [exact Mo|].
    destruct He as [He|[[He|He] _]]; try discriminate He. destruct Hs as [Hs|[[Hs|Hs] _]]; try discriminate Hs.
    destruct Hc as [Hc|[[_ Hc]|[Hc _]]]; try discriminate Hc. destruct F as [F|[_ F]]; try discriminate F.
    repeat split; try congruence.
  - intros (l & -> & d & -> & Mo & He & Hs & Hc & O & F). exists (String.eqb (n_overlay p) "overwrite"). split.
    { unfold overlay_mode. destruct Mo as [-> | ->]; reflexivity. }
    assert (load_footprint xml = Some d) as ->; [|reflexivity]. apply footprint_iff. rewrite He, Hs in M. split; [|split].
    + unfold reads_margins. cbn. rewrite He, Hs, Hc. split; [left; reflexivity|]. split; [left; reflexivity|]. split; [right; left; split; reflexivity|exact M].
    + exact O.
    + right. split; [left; reflexivity|exact F].
Qed.

(** The node comes up exactly with the configurations that make sense, and then with exactly the stack they describe. *)
Theorem C85_the_stack_is_as_configured p ang root ls : build p = Some (ang, root, ls) <-> reads_node p ang root ls.
Proof.
  unfold build. rewrite andthen_some. split.
  - intros (fp & Ef & E). apply andthen_some in E as (poly & Ep & E). destruct (Z.ltb_spec 0 (n_ang p)) as [A|]; [|discriminate].
    apply andthen_some in E as (x & Ex & E). apply andthen_some in E as (st & Es & E). apply andthen_some in E as (dy & Ed & E).
    apply expansion_iff in Ex as (e & s & He & Hs & -> & M). cbn [fst snd] in E. apply outline_iff in Ep.
    assert (ang = n_ang p) as -> by congruence. assert (root = Draw e s (n_min p) poly false) as -> by congruence.
    split; [auto|]. exists fp, st, dy. split; [exact Ef|]. split; [congruence|]. split; [repeat split; try assumption; apply M|]. split.
    + unfold static_layers in Es. destruct (n_static p); [apply layers_iff; exact Es|congruence].
    + destruct (n_layers p) as [xml|] eqn:En; [unfold dynamic_layers in Ed; rewrite En in Ed; apply layers_iff; exact Ed|].
      apply single_iff in Ed; [exact Ed|exact En|]. rewrite He, Hs. destruct M as (M1 & M2 & M3). repeat split; try assumption; lia.
  - intros [[-> A] (fp & st & dy & Ef & -> & (He & Hs & Hm & M & O & K) & Hst & Hdy)]. exists fp. split; [exact Ef|]. apply outline_iff in O. rewrite O. cbn [andthen].
    destruct (Z.ltb_spec 0 (n_ang p)) as [_|]; [|lia]. assert (expansion (n_expand p) (n_spread p) (n_min p) = Some (d_expand root, d_spread root, d_min root)) as ->.
    { apply expansion_iff. exists (d_expand root), (d_spread root). rewrite <- Hm. auto. }
    cbn [andthen fst snd]. assert (static_layers p fp = Some st) as ->. { unfold static_layers. destruct (n_static p); [apply layers_iff; exact Hst|congruence]. }
    cbn [andthen]. assert (dynamic_layers p fp = Some dy) as ->.
    { destruct (n_layers p) as [xml|] eqn:En; [unfold dynamic_layers; rewrite En; apply layers_iff; exact Hdy|]. apply single_iff; [exact En| |exact Hdy]. rewrite He, Hs. destruct M as (M1 & M2 & M3). repeat split; try assumption; lia. }
    cbn [andthen]. destruct root as [re rs rm rp rk]; cbn [d_expand d_spread d_min d_poly d_keep] in *. subst rk. reflexivity.
Qed.

(** *** The topics *)
Lemma topics_iff ls : forall i t j, In (t, j) (topics i ls) <-> (i <= j)%nat /\ exists l, nth_error ls (j - i) = Some l /\ y_topic l = Some t.
Proof.
  induction ls as [|l ls IH]; intros i t j; cbn [topics].
  - split; [intros []|intros (_ & l & E & _); destruct (j - i)%nat; discriminate E].
  - rewrite in_app_iff, IH. split.
    + intros [H|(L & l' & E & T)].
      * destruct (y_topic l) as [t'|] eqn:Et; [|destruct H]. destruct H as [H|[]]. assert (t' = t /\ i = j) as [-> ->] by (split; congruence). split; [lia|]. exists l. rewrite Nat.sub_diag. auto.
      * split; [lia|]. exists l'. replace (j - i)%nat with (S (j - S i)) by lia. auto.
    + intros (L & l' & E & T). destruct (Nat.eq_dec j i) as [->|N].
      * left. rewrite Nat.sub_diag in E. cbn in E. assert (l' = l) as -> by congruence. rewrite T. left. reflexivity.
      * right. split; [lia|]. exists l'. replace (j - i)%nat with (S (j - S i)) in E by lia. auto.
Qed.
(** A map published under the name of a layer goes to the layer of that entry, whichever list it is in: the entries of static_layers come first after the root,
    those of layers after the static output.  Nothing else is subscribed to. *)
Theorem C85_overlay_maps_reach_their_layer p ang root ls fp : build p = Some (ang, root, ls) -> n_footprint p = Some fp ->
  exists st dy, ls = st ++ [Lay LStatic false None] ++ dy ++ [Lay LUpdate false None] /\
  (forall xs i e t, n_static p = Some (XArray xs) -> nth_error xs i = Some e -> field e "name" = Some (XString t) ->
     In (t, i) (topics 0 ls) /\ exists l, nth_error ls i = Some l /\ reads_layer fp e l) /\
  (forall xs i e t, n_layers p = Some (XArray xs) -> nth_error xs i = Some e -> field e "name" = Some (XString t) ->
     In (t, (length st + 1 + i)%nat) (topics 0 ls) /\ exists l, nth_error ls (length st + 1 + i) = Some l /\ reads_layer fp e l) /\
  (n_layers p = None -> In ("map_overlay", (length st + 1)%nat) (topics 0 ls)) /\
  (forall t i, In (t, i) (topics 0 ls) -> (exists l, nth_error ls i = Some l /\ y_topic l = Some t) /\ i <> length st /\ (i < length st + 1 + length dy)%nat).
Proof.
  intros B Ef. apply C85_the_stack_is_as_configured in B as [_ (fp' & st & dy & Ef' & El & _ & Hst & Hdy)]. assert (fp' = fp) as -> by congruence. exists st, dy. split; [exact El|].
  assert (Two : forall xs i e (l0 : list lay), Forall2 (reads_layer fp) xs l0 -> nth_error xs i = Some e -> exists l, nth_error l0 i = Some l /\ reads_layer fp e l).
  { intros xs i e l0 F. revert i. induction F as [|x l xs l0 R F IH]; intros [|i] E; try discriminate E; [exists l; cbn in E; assert (x = e) as -> by congruence; auto|apply IH; exact E]. }
  assert (Name : forall e l t, reads_layer fp e l -> field e "name" = Some (XString t) -> y_topic l = Some t).
  { intros e l t [_ (t' & -> & [H|[[H|H] _]]) _ _] E; congruence. }
  assert (In' : forall i l t, nth_error ls i = Some l -> y_topic l = Some t -> In (t, i) (topics 0 ls)). { intros i l t E T. apply topics_iff. split; [lia|]. exists l. rewrite Nat.sub_0_r. auto. }
  assert (Nst : forall i l, nth_error st i = Some l -> nth_error ls i = Some l). { intros i l E. rewrite El, nth_error_app1; [exact E|]. apply nth_error_Some. congruence. }
  assert (Ndy : forall i l, nth_error dy i = Some l -> nth_error ls (length st + 1 + i) = Some l).
  { intros i l E. rewrite El, nth_error_app2 by lia. replace (length st + 1 + i - length st)%nat with (S i) by lia. cbn [app nth_error]. rewrite nth_error_app1; [exact E|]. apply nth_error_Some. congruence. }
  split; [|split; [|split]].
  - intros xs i e t Ex Ei En. rewrite Ex in Hst. destruct Hst as (l0 & E0 & _ & F). assert (l0 = xs) as -> by congruence. destruct (Two _ _ _ _ F Ei) as (l & Hl & R). apply Nst in Hl. split; [apply (In' i l); [exact Hl|apply (Name e); assumption]|eauto].
  - intros xs i e t Ex Ei En. rewrite Ex in Hdy. destruct Hdy as (l0 & E0 & _ & F). assert (l0 = xs) as -> by congruence. destruct (Two _ _ _ _ F Ei) as (l & Hl & R). apply Ndy in Hl. split; [apply (In' _ l); [exact Hl|apply (Name e); assumption]|eauto].
  - intros Ex. rewrite Ex in Hdy. destruct Hdy as (l & -> & d & -> & _). assert (E : nth_error ls (length st + 1 + 0) = Some (Lay (LFoot d) (String.eqb (n_overlay p) "overwrite") (Some "map_overlay"))) by (apply Ndy; reflexivity).
    rewrite Nat.add_0_r in E. apply (In' _ _ _ E). reflexivity.
  - intros t i H. apply topics_iff in H as (_ & l & E & T). rewrite Nat.sub_0_r in E. split; [eauto|].
    assert (i <> length st). { intros ->. rewrite El, nth_error_app2, Nat.sub_diag in E by lia. cbn in E. assert (l = Lay LStatic false None) as -> by congruence. discriminate T. }
    split; [assumption|]. destruct (Nat.lt_ge_cases i (length st + 1 + length dy)) as [L|L]; [exact L|exfalso]. rewrite El, nth_error_app2 in E by lia.
    replace (i - length st)%nat with (S (i - length st - 1)) in E by lia. cbn [app nth_error] in E. rewrite nth_error_app2 in E by lia.
    destruct (i - length st - 1 - length dy)%nat as [|n]; [|destruct n; discriminate E]. cbn in E. assert (l = Lay LUpdate false None) as -> by congruence. discriminate T.
Qed.

(** *** The layers at work *)
(** A footprint with finite coordinates. *)
Definition as_points (ps : list (num * num)) (fp : list vec2) : Prop := Forall2 (fun q v => q = (Fin (vx v), Fin (vy v))) ps fp.
(** The template a layer draws with on a map of this resolution. *)
Definition draws (res ares : R) (d : draw) (clear : bool) (k : fcfg) : Prop :=
  exists fp, as_points (d_poly d) fp /\ template_of (Params (d_expand d) (d_spread d) (d_min d) res ares) fp k /\ f_keep k = d_keep d /\ f_clear k = clear.
Inductive made (res ares : R) : lay -> kind -> Prop :=
| mk_foot d o t k : draws res ares d o k -> made res ares (Lay (LFoot d) o t) (Foot k)
| mk_plain d o t k : draws res ares d o k -> made res ares (Lay (LPlain d) o t) (Foot k)
| mk_unknown c o t : made res ares (Lay (LUnknown c) o t) (Unknown c)
| mk_stop o t : made res ares (Lay LStop o t) StopProp
| mk_static o t : made res ares (Lay LStatic o t) StaticOut
| mk_update o t : made res ares (Lay LUpdate o t) UpdateOut.

Lemma range_nonneg' c fp : (0 <= expand c)%R -> (0 <= spread c)%R -> (0 < lin_res c)%R -> (0 <= range_max c fp)%Z.
Proof.
  intros E S L. unfold range_max, ceil. assert (0 <= (radius fp + expand c + spread c) / lin_res c)%R.
  { apply Rmult_le_pos; [pose proof (proj1 (radius_spec fp)); lra|left; apply Rinv_0_lt_compat; exact L]. }
  set (r := (_ / _)%R) in *. destruct (base_Int_part (- r)) as [H1 _]. assert (H0 : (IZR (Int_part (- r)) <= 0)%R) by lra. apply (le_IZR _ 0) in H0. lia.
Qed.
Lemma draws_range res ares d o k : (0 < res)%R -> margins (d_expand d) (d_spread d) (d_min d) -> draws res ares d o k -> (0 <= f_r k)%Z.
Proof. intros R (M1 & M2 & _) (fp & _ & [-> _] & _). apply range_nonneg'; assumption. Qed.
Lemma outline_points f ps fp : reads_outline f ps -> as_points ps fp -> fp <> [].
Proof. intros O A. inversion O; subst. inversion A; subst. discriminate. Qed.
Lemma draws_exists res ares d o fp : fp <> [] -> as_points (d_poly d) fp -> exists k, draws res ares d o k.
Proof.
  intros N A. set (c := Params (d_expand d) (d_spread d) (d_min d) res ares).
  exists (Fcfg (fun x y a => match template_cell c fp x y a with Ok v => v | UB => 0%Z end) (range_max c fp) (d_keep d) o).
  exists fp. split; [exact A|]. split; [|split; reflexivity]. split; [reflexivity|]. cbn [f_tmpl]. intros x y a. fold c. destruct (template_ok c fp x y a N) as (v & ->). reflexivity.
Qed.
Lemma layer_margins fp e l : reads_layer fp e l -> match y_class l with LFoot d | LPlain d => margins (d_expand d) (d_spread d) (d_min d) | LUnknown _ | LStop => True | _ => False end.
Proof.
  intros [_ _ _ (t & _ & C)]. inversion C as [d f M|d M| |]; try exact I; apply M.
Qed.
Lemma inner_layers p ang root ls : reads_node p ang root ls -> exists st dy, ls = st ++ [Lay LStatic false None] ++ dy ++ [Lay LUpdate false None] /\
  Forall (fun l => match y_class l with LFoot d | LPlain d => margins (d_expand d) (d_spread d) (d_min d) | LUnknown _ | LStop => True | _ => False end) (st ++ dy) /\
  margins (d_expand root) (d_spread root) (d_min root) /\ (n_static p = None -> st = []).
Proof.
  intros [_ (fp & st & dy & _ & El & (He & Hs & _ & M & _) & Hst & Hdy)]. exists st, dy. split; [exact El|]. split; [|split; [exact M|intros E; rewrite E in Hst; exact Hst]].
  assert (R : forall xml xs, reads_layers fp xml xs -> Forall (fun l => match y_class l with LFoot d | LPlain d => margins (d_expand d) (d_spread d) (d_min d) | LUnknown _ | LStop => True | _ => False end) xs).
  { intros xml xs (l & _ & _ & F). induction F as [|e x l xs R F IH]; constructor; [apply (layer_margins fp e); exact R|exact IH]. }
  apply Forall_app. split; [destruct (n_static p); [apply (R _ _ Hst)|subst st; constructor]|].
  destruct (n_layers p); [apply (R _ _ Hdy)|]. destruct Hdy as (l & -> & d & -> & _ & He' & Hs' & Hc & _). constructor; [|constructor]. cbn [y_class].
  assert (d_expand d = d_expand root) as -> by congruence. assert (d_spread d = d_spread root) as -> by congruence. rewrite Hc. destruct M as (M1 & M2 & M3). repeat split; try assumption; lia.
Qed.
Lemma Forall2_app_l A B (R : A -> B -> Prop) l1 : forall l2 ks, Forall2 R (l1 ++ l2) ks -> exists k1 k2, ks = k1 ++ k2 /\ Forall2 R l1 k1 /\ Forall2 R l2 k2.
Proof.
  induction l1 as [|a l1 IH]; intros l2 ks H; [exists [], ks; auto|]. inversion H as [|? b ? ks' Rab F]; subst. destruct (IH _ _ F) as (k1 & k2 & -> & F1 & F2). exists (b :: k1), k2. split; [reflexivity|]. split; [constructor; assumption|exact F2].
Qed.
Lemma inner_kinds res ares ls ks : (0 < res)%R ->
  Forall (fun l => match y_class l with LFoot d | LPlain d => margins (d_expand d) (d_spread d) (d_min d) | LUnknown _ | LStop => True | _ => False end) ls ->
  Forall2 (made res ares) ls ks -> Forall kind_ok ks /\ Forall (fun k => output k = false) ks.
Proof.
  intros R F F2. induction F2 as [|l k ls ks M F2 IH]; [split; constructor|]. inversion F as [|? ? Hl Hls]; subst. destruct (IH Hls) as [A B]. split; constructor; try assumption;
    inversion M; subst; cbn [y_class] in Hl; try contradiction; try exact I; try reflexivity; cbn [kind_ok]; eapply draws_range; eauto.
Qed.
(** The shape of every stack that comes up. *)
Lemma configured_shape p ang root ls res ares ks : build p = Some (ang, root, ls) -> (0 < res)%R -> Forall2 (made res ares) ls ks ->
  exists k1 k2, ks = k1 ++ [StaticOut] ++ k2 ++ [UpdateOut] /\ Forall kind_ok (k1 ++ k2) /\ Forall (fun k => output k = false) (k1 ++ k2) /\ (n_static p = None -> k1 = []).
Proof.
  intros B R F. apply C85_the_stack_is_as_configured in B. destruct (inner_layers _ _ _ _ B) as (st & dy & -> & I & M & S0).
  apply Forall2_app_l in F as (k1 & kr & -> & F1 & F). apply Forall2_app_l in F as (ko & kr' & -> & Fo & F). apply Forall2_app_l in F as (k2 & ku & -> & F2 & Fu).
  inversion Fo as [|? ? ? ? Mo Fo']; subst. inversion Fo'; subst. inversion Mo; subst. inversion Fu as [|? ? ? ? Mu Fu']; subst. inversion Fu'; subst. inversion Mu; subst.
  exists k1, k2. split; [reflexivity|]. apply Forall_app in I as [I1 I2]. destruct (inner_kinds res ares _ _ R I1 F1) as [A1 B1]. destruct (inner_kinds res ares _ _ R I2 F2) as [A2 B2].
  split; [apply Forall_app; auto|]. split; [apply Forall_app; auto|]. intros E. specialize (S0 E). subst st. inversion F1. reflexivity.
Qed.
(** Whatever configuration comes up, on a map of any resolution: the node serves every sequence of maps and overlay maps (no assertion fails, no memory outside a map
    is touched), and after a base map every layer shows what it is configured to show. *)
Theorem C85_configured_nodes_serve_all_messages p ang root ls res ares k ks es : build p = Some (ang, root, ls) -> (0 < res)%R ->
  draws res ares root false k -> Forall2 (made res ares) ls ks ->
  good_conf k ang ks /\ (Forall (good_event ks) es -> exists n ps, run (new_node k ang ks) es = Ok (n, ps)).
Proof.
  intros B R D F. destruct (configured_shape p ang root ls res ares ks B R F) as (k1 & k2 & Ek & Ko & No & _).
  assert (G : good_conf k ang ks).
  { apply C85_the_stack_is_as_configured in B. destruct (inner_layers _ _ _ _ B) as (_ & _ & _ & _ & M & _). destruct B as [[_ A] _]. split.
    - eapply draws_range; eauto.
    - exact A.
    - rewrite Ek. apply Forall_app in Ko as [K1 K2]. apply Forall_app. split; [exact K1|]. constructor; [exact I|]. apply Forall_app. split; [exact K2|]. constructor; [exact I|constructor].
    - intros pre post E. rewrite Ek in E. destruct post as [|q post]; [reflexivity|exfalso].
      destruct (@exists_last _ (q :: post) ltac:(discriminate)) as (post' & z & Ep). rewrite Ep in E.
      replace (k1 ++ [StaticOut] ++ k2 ++ [UpdateOut]) with ((k1 ++ [StaticOut] ++ k2) ++ [UpdateOut]) in E by (rewrite <- !app_assoc; reflexivity).
      replace (pre ++ UpdateOut :: post' ++ [z]) with ((pre ++ UpdateOut :: post') ++ [z]) in E by (rewrite <- app_assoc; reflexivity).
      apply app_inj_tail in E as [E _]. assert (I : In UpdateOut (k1 ++ [StaticOut] ++ k2)) by (rewrite E; apply in_elt).
      apply in_app_iff in I as [I|I]; [|apply in_app_iff in I as [[I|[]]|I]; [discriminate I|]]; rewrite Forall_forall in No; specialize (No _ ltac:(apply in_app_iff; eauto)); discriminate No. }
  split; [exact G|]. intros Ge. destruct G as [H1 H2 H3 H4]. destruct (run_ok k ang ks H1 H2 H3 H4 es Ge) as (n & ps & E & _). eauto.
Qed.

Lemma static_chain so rest : l_kind so = StaticOut -> forall st parent r ls' ps, Forall (fun l => output (l_kind l) = false) st ->
  chain parent r true (st ++ so :: rest) = Ok (ls', ps) -> exists m ps', ps = PubMap m :: ps' /\ below parent ls' (length st) = Some m.
Proof.
  intros Ks. induction st as [|l st IH]; intros parent r ls' ps F E; cbn [app chain] in E.
  - unfold entry in E. rewrite Ks in E. destruct (bitblt _ _ _) as [b|]; [|discriminate]. cbn [bind] in E. destruct (chain _ _ _ _) as [c|]; [|discriminate]. cbn [bind] in E.
    exists parent, (snd c). split; [cbn [app] in E; congruence|reflexivity].
  - inversion F as [|? ? Kl Fl]; subst. destruct (entry parent r true l) as [[[[l1 r1] o1] p1]|] eqn:En; [|discriminate]. cbn [bind] in E.
    assert (o1 = true /\ p1 = []) as [-> ->].
    { unfold entry in En. destruct (bitblt _ _ _) as [b|]; [|discriminate]. cbn [bind] in En. destruct (l_kind l); try discriminate Kl.
      - destruct (match l_msg l with Some m => _ | None => _ end); [|discriminate]. cbn [bind] in En. split; congruence.
      - destruct (handle_unknown _ _ _); [|discriminate]. cbn [bind] in En. split; congruence.
      - split; congruence. }
    destruct (chain (l_over l1) r1 true (st ++ so :: rest)) as [[ls2 ps2]|] eqn:Ec; [|discriminate]. cbn [bind fst snd app] in E.
    destruct (IH _ _ _ _ Fl Ec) as (m & ps' & -> & Bm). assert (ls' = l1 :: ls2) as -> by congruence. exists m, ps'. split; [congruence|].
    cbn [length below]. destruct (length st) as [|j] eqn:Lj; cbn [below] in Bm; cbn [nth_error option_map]; [exact Bm|exact Bm].
Qed.
(** The costmap published for a base map is the one above the static layers: the inflated base map if there are none. *)
Theorem C85_the_costmap_has_the_static_layers p ang root ls res ares k ks es b n ps n' ps' : build p = Some (ang, root, ls) -> (0 < res)%R ->
  draws res ares root false k -> Forall2 (made res ares) ls ks ->
  Forall (good_event ks) es -> last_base es <> None -> good_base b ->
  run (new_node k ang ks) es = Ok (n, ps) -> step n (EvBase b) = Ok (n', ps') ->
  exists st dy m rest, ls = st ++ [Lay LStatic false None] ++ dy ++ [Lay LUpdate false None] /\ (n_static p = None -> st = []) /\
    base_map k (b_w b) (b_h b) ang (b_data b) = Ok (s_base (n_stack n')) /\ ps' = PubMap m :: rest /\ below (s_base (n_stack n')) (s_layers (n_stack n')) (length st) = Some m.
Proof.
  intros B R D F Ge Lb Gb Er Es. destruct (C85_configured_nodes_serve_all_messages p ang root ls res ares k ks es B R D F) as [[H1 H2 H3 H4] _].
  destruct (run_ok k ang ks H1 H2 H3 H4 es Ge) as (n0 & ps0 & E0 & S). rewrite Er in E0. assert (n0 = n) as -> by congruence. unfold state_after in S. destruct (last_base es) as [b0|]; [|congruence].
  destruct S as (Bf & _ & Rd). apply ready_can in Rd. destruct Rd as [Ra Rb Rc _ Rk _].
  pose proof B as B'. apply C85_the_stack_is_as_configured in B'. destruct (inner_layers _ _ _ _ B') as (st & dy & El & I & _ & S0). apply Forall_app in I as [I1 _].
  exists st, dy. rewrite El in F. apply Forall2_app_l in F as (k1 & kr & -> & F1 & F). inversion F as [|? ko ? kr' Mo _]; subst. inversion Mo; subst. destruct (inner_kinds res ares _ _ R I1 F1) as [_ N1].
  cbn [step] in Es. unfold Layers.cb_map, set_base in Es. destruct (_ && _)%bool; [|discriminate]. destruct (base_map _ _ _ _ _) as [m|] eqn:Em; [|discriminate]. cbn [bind] in Es.
  destruct (chain _ _ _ _) as [[ls' ps1]|] eqn:Ec; [|discriminate]. cbn [bind fst snd] in Es. rewrite Bf in Es. cbn [replay bind fst snd] in Es.
  assert (exists sr sa sg, n' = Node (Stack sr sa m sg ls') []) as (sr & sa & sg & ->) by (cbn [n_stack] in Es; eexists; eexists; eexists; symmetry; injection Es as Q _; exact Q).
  assert (ps' = ps1) as -> by (rewrite app_nil_r in Es; congruence). cbn [n_stack s_base s_layers].
  assert (Sp : exists t so rest, s_layers (n_stack n) = t ++ so :: rest /\ map l_kind t = k1 /\ l_kind so = StaticOut).
  { clear -Rk. revert Rk. generalize (s_layers (n_stack n)). induction k1 as [|q k1 IH]; intros l E; destruct l as [|x l]; try discriminate E; cbn in E.
    - exists [], x, l. split; [reflexivity|]. split; [reflexivity|congruence].
    - destruct (IH l ltac:(congruence)) as (t & so & rest & -> & E1 & E2). exists (x :: t), so, rest. split; [reflexivity|]. split; [cbn; congruence|exact E2]. }
  destruct Sp as (t & so & rest & Sl & Kt & Kso). rewrite Sl, map_app in Ec. cbn [map] in Ec.
  set (so' := Layer (l_kind so) m _ _ _ _) in Ec. set (t' := map _ t) in Ec.
  assert (Ft : Forall (fun l => output (l_kind l) = false) t').
  { apply Forall_forall. intros x Hx. apply in_map_iff in Hx as (y & <- & Hy). cbn [l_kind]. rewrite Forall_forall in N1. apply N1. rewrite <- Kt. apply List.in_map. exact Hy. }
  destruct (static_chain so' _ Kso t' _ _ _ _ Ft Ec) as (mm & pp & -> & Bm). unfold t' in Bm.
  exists mm, pp. split; [reflexivity|]. split; [exact S0|]. split; [reflexivity|]. split; [reflexivity|].
  rewrite map_length in Bm. assert (Ls : length st = length k1) by (clear -F1; induction F1; cbn; congruence). rewrite <- Kt, map_length in Ls. rewrite Ls. exact Bm.
Qed.

(** *** Wrong configurations *)
(** Mistakes in an entry of a list of layers: no type or one that does not exist, an unknown overlay_mode, margins that are written but are not finite non-negative
    decimal numbers, no footprint polygon. *)
Definition draws_type (e : xv) : Prop := field e "type" = Some (XString "Costmap3dLayerFootprint") \/ field e "type" = Some (XString "Costmap3dLayerPlain").
Definition bad_length (v : option xv) : Prop := exists x, v = Some x /\ x <> XInvalid /\ forall r, x = XDouble (Fin r) -> (r < 0)%R.
Inductive mistake (fp e : xv) : Prop :=
| no_struct : (forall m, e <> XStruct m) -> mistake fp e
| bad_type : (forall t, field e "type" = Some (XString t) -> ~ In t ["Costmap3dLayerFootprint"; "Costmap3dLayerPlain"; "Costmap3dLayerStopPropagation"; "Costmap3dLayerUnknownHandle"]) -> mistake fp e
| bad_mode t : field e "overlay_mode" = Some (XString t) -> t <> "overwrite" -> t <> "max" -> mistake fp e
| bad_expand : draws_type e -> bad_length (field e "linear_expand") -> mistake fp e
| bad_spread : draws_type e -> bad_length (field e "linear_spread") -> mistake fp e
| bad_min z : draws_type e -> field e "linear_spread_min_cost" = Some (XInt z) -> (z < 0 \/ 100 <= z)%Z -> mistake fp e
| bad_outline f : field e "type" = Some (XString "Costmap3dLayerFootprint") -> f = match field e "footprint" with Some f => f | None => fp end ->
    (forall l, f = XArray l -> (length l < 3)%nat \/ exists v, In v l /\ v <> XInvalid /\ forall w, v <> XArray w) -> mistake fp e.
Lemma no_bad_length v r : bad_length v -> reads_length v r -> (0 <= r)%R -> False.
Proof. intros (x & -> & N & H) [E|[[E|E] _]] R; [|congruence|congruence]. specialize (H r ltac:(congruence)). lra. Qed.
Lemma no_mistake fp e l : reads_layer fp e l -> ~ mistake fp e.
Proof.
  intros [(m & Em) _ Hm (t & Ht & Hc)] M.
  assert (D : draws_type e -> exists d, reads_margins e d).
  { intros [T|T]; rewrite Ht in T; assert (Et := T); inversion Hc; subst; try discriminate Et; eauto. }
  destruct M as [M|M|t' E N1 N2|T B|T B|z T E B|f T Ef B].
  - exact (M m Em).
  - apply (M t Ht). inversion Hc; cbn; auto.
  - rewrite E in Hm. inversion Hm as [| |? Q]; subst; [contradiction|contradiction|exact (Q _ eq_refl)].
  - destruct (D T) as (d & A1 & _ & _ & A2 & _). exact (no_bad_length _ _ B A1 A2).
  - destruct (D T) as (d & _ & A1 & _ & _ & A2 & _). exact (no_bad_length _ _ B A1 A2).
  - destruct (D T) as (d & _ & _ & A1 & _ & _ & A2). rewrite E in A1. destruct A1 as [A1|[[A1 _]|[A1 _]]]; try discriminate A1. assert (d_min d = z) by congruence. lia.
  - rewrite Ht in T. inversion Hc as [d f' M Ef' O F|d M| |z I]; subst; try discriminate T. inversion O as [ll p ps L F2 El Ep]. destruct (B ll (eq_sym El)) as [B1|(v & Iv & Nv & Na)]; [lia|].
    assert (exists q, reads_vertex v q) as (q & Rq). { clear -F2 Iv. induction F2 as [|x y xs ys R F IH]; [destruct Iv|]. destruct Iv as [->|Iv]; [eauto|apply IH; exact Iv]. }
    inversion Rq; subst; [exact (Na _ eq_refl)|contradiction].
Qed.
(** With a mistake in any entry of either list, the node does not start. *)
Theorem C85_mistakes_stop_the_node p fp xs e : n_footprint p = Some fp -> n_static p = Some (XArray xs) \/ n_layers p = Some (XArray xs) -> In e xs -> mistake fp e -> build p = None.
Proof.
  intros Ef Ex I M. destruct (build p) as [[[ang root] ls]|] eqn:B; [exfalso|reflexivity]. apply C85_the_stack_is_as_configured in B as [_ (fp' & st & dy & Ef' & _ & _ & Hst & Hdy)].
  assert (fp' = fp) as -> by congruence.
  assert (R : forall l0, reads_layers fp (XArray xs) l0 -> False).
  { intros l0 (xs' & E & _ & F). assert (xs' = xs) as -> by congruence. clear -F I M. induction F as [|x l xs l0 R F IH]; [destruct I|]. destruct I as [->|I]; [exact (no_mistake _ _ _ R M)|apply IH; exact I]. }
  destruct Ex as [E|E]; [rewrite E in Hst; exact (R _ Hst)|rewrite E in Hdy; exact (R _ Hdy)].
Qed.

(** *** Examples *)
Definition corner (x y : R) : xv := XArray [XDouble (Fin x); XDouble (Fin y)].
Definition square_xml : xv := XArray [corner 1 1; corner 1 (-1); corner (-1) (-1); corner (-1) 1].
Definition square_points : list (num * num) := [(Fin 1, Fin 1); (Fin 1, Fin (-1)); (Fin (-1), Fin (-1)); (Fin (-1), Fin 1); (Fin 1, Fin 1)].
Lemma square_read : reads_outline square_xml square_points.
Proof. apply outline_iff. reflexivity. Qed.
Definition static_entry : xv := XStruct [("name", XString "no_go"); ("type", XString "Costmap3dLayerPlain"); ("overlay_mode", XString "max"); ("linear_expand", XDouble (Fin 1)); ("linear_spread", XDouble (Fin 2))].
Definition overlay_entry : xv := XStruct [("name", XString "overlay"); ("type", XString "Costmap3dLayerFootprint"); ("overlay_mode", XString "overwrite"); ("linear_expand", XDouble (Fin 0)); ("linear_spread", XDouble (Fin 1)); ("linear_spread_min_cost", XInt 10); ("keep_unknown", XBool true)].
Definition last_entry : xv := XStruct [("type", XString "Costmap3dLayerUnknownHandle"); ("name", XString "unknown"); ("unknown_cost", XInt 50)].
Definition example_params : node_params := NodeParams 16 (Some square_xml) (Fin 1) (Fin 1) 0 (Some (XArray [static_entry])) (Some (XArray [overlay_entry; last_entry])) "max".
Definition origin_points : list (num * num) := [(Fin 0, Fin 0); (Fin 0, Fin 0); (Fin 0, Fin 0)].
Definition example_stack : list lay :=
  [Lay (LPlain (Draw 1 2 0 origin_points false)) false (Some "no_go"); Lay LStatic false None;
   Lay (LFoot (Draw 0 1 10 square_points true)) true (Some "overlay"); Lay (LUnknown 50) false (Some "unknown"); Lay LUpdate false None].
Lemma example_builds : build example_params = Some (16%Z, Draw 1 1 0 square_points false, example_stack).
Proof.
  apply C85_the_stack_is_as_configured. split; [split; [reflexivity|lia]|].
  exists square_xml, [Lay (LPlain (Draw 1 2 0 origin_points false)) false (Some "no_go")], [Lay (LFoot (Draw 0 1 10 square_points true)) true (Some "overlay"); Lay (LUnknown 50) false (Some "unknown")].
  split; [reflexivity|]. split; [reflexivity|]. split; [repeat split; try reflexivity; try apply square_read; cbn; try lra; lia|]. split.
  - exists [static_entry]. split; [reflexivity|]. split; [discriminate|]. constructor; [|constructor]. split; [eexists; reflexivity| | |].
    + exists "no_go". split; [reflexivity|left; reflexivity].
    + constructor.
    + exists "Costmap3dLayerPlain". split; [reflexivity|]. constructor; try reflexivity. split; [left; reflexivity|]. split; [left; reflexivity|]. split; [right; left; split; reflexivity|]. cbn. repeat split; try lra; lia.
  - exists [overlay_entry; last_entry]. split; [reflexivity|]. split; [discriminate|]. constructor; [|constructor; [|constructor]].
    + split; [eexists; reflexivity| | |].
      * exists "overlay". split; [reflexivity|left; reflexivity].
      * constructor.
      * exists "Costmap3dLayerFootprint". split; [reflexivity|]. econstructor; [|reflexivity|exact square_read|left; reflexivity]. split; [left; reflexivity|]. split; [left; reflexivity|]. split; [left; reflexivity|]. cbn. repeat split; try lra; lia.
    + split; [eexists; reflexivity| | |].
      * exists "unknown". split; [reflexivity|left; reflexivity].
      * apply rm_other. intros s. discriminate.
      * exists "Costmap3dLayerUnknownHandle". split; [reflexivity|]. change (LUnknown 50) with (LUnknown (i8 50)). constructor. left. reflexivity.
Qed.
(** Its layers can be drawn on a map of any resolution, so the theorems above apply to it. *)
Example C85_example res ares : (0 < res)%R ->
  build example_params = Some (16%Z, Draw 1 1 0 square_points false, example_stack) /\
  topics 0 example_stack = [("no_go", 0%nat); ("overlay", 2%nat); ("unknown", 3%nat)] /\
  exists k ks, draws res ares (Draw 1 1 0 square_points false) false k /\ Forall2 (made res ares) example_stack ks /\ good_conf k 16 ks /\ length ks = 5%nat.
Proof.
  intros R. split; [exact example_builds|]. split; [reflexivity|].
  assert (NE : forall A (x : A) l, x :: l <> []) by discriminate.
  assert (Sq : as_points square_points [V2 1 1; V2 1 (-1); V2 (-1) (-1); V2 (-1) 1; V2 1 1]) by (repeat constructor).
  assert (Or : as_points origin_points [V2 0 0; V2 0 0; V2 0 0]) by (repeat constructor).
  destruct (draws_exists res ares (Draw 1 1 0 square_points false) false _ (NE _ _ _) Sq) as (k & Dk).
  destruct (draws_exists res ares (Draw 1 2 0 origin_points false) false _ (NE _ _ _) Or) as (k1 & D1).
  destruct (draws_exists res ares (Draw 0 1 10 square_points true) true _ (NE _ _ _) Sq) as (k2 & D2).
  exists k, [Foot k1; StaticOut; Foot k2; Unknown 50; UpdateOut]. assert (F : Forall2 (made res ares) example_stack [Foot k1; StaticOut; Foot k2; Unknown 50; UpdateOut]).
  { unfold example_stack. repeat (constructor; [constructor; assumption|]). constructor. }
  split; [exact Dk|]. split; [exact F|]. split; [|reflexivity].
  exact (proj1 (C85_configured_nodes_serve_all_messages _ _ _ _ res ares k _ [] example_builds R Dk F)).
Qed.
(** A mistake, for C85_mistakes_stop_the_node: whole numbers are not decimal numbers. *)
Example C85_mistake_example : mistake square_xml (XStruct [("name", XString "l"); ("type", XString "Costmap3dLayerPlain"); ("linear_expand", XInt 1); ("linear_spread", XDouble (Fin 1))]).
Proof. apply bad_expand; [right; reflexivity|]. exists (XInt 1). split; [reflexivity|]. split; [discriminate|]. intros r. discriminate. Qed.

(** *** What is accepted without a word *)
(** Leaving out the margins of a layer, or misspelling their names, is not refused: its obstacles get no margin at all. *)
Definition no_margins : xv := XStruct [("name", XString "overlay"); ("type", XString "Costmap3dLayerFootprint"); ("linear_expnd", XDouble (Fin 1))].
Theorem C85_missing_margins_are_refused_refuted : exists p root ls d, n_layers p = Some (XArray [no_margins]) /\ (forall fp, n_footprint p = Some fp -> fp = square_xml) /\
  build p = Some (16%Z, root, ls) /\ In (Lay (LFoot d) false (Some "overlay")) ls /\ d_expand d = 0%R /\ d_spread d = 0%R.
Proof.
  exists (NodeParams 16 (Some square_xml) (Fin 1) (Fin 1) 0 None (Some (XArray [no_margins])) "max"), (Draw 1 1 0 square_points false),
    [Lay LStatic false None; Lay (LFoot (Draw 0 0 0 square_points false)) false (Some "overlay"); Lay LUpdate false None], (Draw 0 0 0 square_points false).
  split; [reflexivity|]. split; [cbn; congruence|]. split; [|cbn; auto].
  apply C85_the_stack_is_as_configured. split; [split; [reflexivity|lia]|]. exists square_xml, [], [Lay (LFoot (Draw 0 0 0 square_points false)) false (Some "overlay")].
  split; [reflexivity|]. split; [reflexivity|]. split; [repeat split; try reflexivity; try apply square_read; cbn; try lra; lia|]. split; [reflexivity|].
  exists [no_margins]. split; [reflexivity|]. split; [discriminate|]. constructor; [|constructor]. split; [eexists; reflexivity| | |].
  - exists "overlay". split; [reflexivity|left; reflexivity].
  - apply rm_other. intros s. discriminate.
  - exists "Costmap3dLayerFootprint". split; [reflexivity|]. econstructor; [|reflexivity|exact square_read|right; split; [left|]; reflexivity].
    split; [right; split; [left|]; reflexivity|]. split; [right; split; [left|]; reflexivity|]. split; [right; left; split; reflexivity|]. cbn. repeat split; try lra; lia.
Qed.
(** A vertex without its second coordinate is not refused: the robot gets smaller. *)
Theorem C85_incomplete_footprints_are_refused_refuted :
  polygon_xml (XArray [corner 1 1; XArray [XDouble (Fin 1)]; corner (-1) (-1)]) = Some [(Fin 1, Fin 1); (Fin 1, Fin 0); (Fin (-1), Fin (-1)); (Fin 1, Fin 1)].
Proof. reflexivity. Qed.
(** In single layer mode the overlay does not get the minimum cost of the node's configuration. *)
Theorem C85_single_layer_is_like_the_root_refuted p ang root ls : build p = Some (ang, root, ls) -> n_layers p = None ->
  exists d o, In (Lay (LFoot d) o (Some "map_overlay")) ls /\ d_expand d = d_expand root /\ d_spread d = d_spread root /\ d_poly d = d_poly root /\ d_min root = n_min p /\ d_min d = 0%Z.
Proof.
  intros B N. apply C85_the_stack_is_as_configured in B as [_ (fp & st & dy & _ & -> & (He & Hs & Hm & _ & O & _) & _ & Hdy)]. rewrite N in Hdy. destruct Hdy as (l & -> & d & -> & _ & He' & Hs' & Hc & O' & _).
  exists d. eexists. split; [apply in_app_iff; right; right; left; reflexivity|]. repeat split; try congruence. apply outline_iff in O, O'. congruence.
Qed.
(** The documented class Costmap3dLayerOutput (README.md) cannot be configured: the node does not start. *)
Theorem C85_documented_output_layer_refuted p fp xs e : n_footprint p = Some fp -> n_static p = Some (XArray xs) \/ n_layers p = Some (XArray xs) -> In e xs ->
  field e "type" = Some (XString "Costmap3dLayerOutput") -> build p = None.
Proof.
  intros Ef Ex I T. apply (C85_mistakes_stop_the_node p fp xs e Ef Ex I). apply bad_type. intros t Et. assert (t = "Costmap3dLayerOutput") as -> by congruence. cbn. intuition discriminate.
Qed.
(** An unknown_cost that does not fit is not refused but wraps around: 200 leaves the cells unknown. *)
Theorem C85_unknown_cost_is_kept_refuted : load_class "Costmap3dLayerUnknownHandle" (XStruct [("unknown_cost", XInt 200)]) = Some (LUnknown (-56)).
Proof. reflexivity. Qed.

Print Assumptions C85_the_stack_is_as_configured.
Print Assumptions C85_overlay_maps_reach_their_layer.
Print Assumptions C85_configured_nodes_serve_all_messages.
Print Assumptions C85_the_costmap_has_the_static_layers.
Print Assumptions C85_mistakes_stop_the_node.
