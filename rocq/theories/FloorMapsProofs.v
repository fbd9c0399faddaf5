From Coq Require Import ZifyBool Permutation.
From Verif Require Import Common OverlayProofs FloorMaps.
Local Open Scope Z_scope.

(** *** Bounds *)
Lemma lower_le (f : pt -> Z) pts : forall m, (forall p, In p pts -> fold_left (fun m p => if f p <? m then f p else m) pts m <= f p) /\
  fold_left (fun m p => if f p <? m then f p else m) pts m <= m.
Proof.
  induction pts as [|p pts IH]; intros m; cbn [fold_left]; [split; [intros p []|lia]|].
  destruct (IH (if f p <? m then f p else m)) as [A B]. split.
  - intros q [<-|I]; [|apply A; exact I]. destruct (Z.ltb_spec (f p) m); lia.
  - destruct (Z.ltb_spec (f p) m); lia.
Qed.
Lemma upper_ge (f : pt -> Z) pts : forall m, (forall p, In p pts -> f p <= fold_left (fun m p => if m <? f p then f p else m) pts m) /\
  m <= fold_left (fun m p => if m <? f p then f p else m) pts m.
Proof.
  induction pts as [|p pts IH]; intros m; cbn [fold_left]; [split; [intros p []|lia]|].
  destruct (IH (if m <? f p then f p else m)) as [A B]. split.
  - intros q [<-|I]; [|apply A; exact I]. destruct (Z.ltb_spec m (f p)); lia.
  - destruct (Z.ltb_spec m (f p)); lia.
Qed.
Lemma bounds_in f pts p : In p pts -> lower f pts <= f p <= upper f pts.
Proof. intros I. split; [apply (lower_le f pts INT_MAX); exact I|apply (upper_ge f pts 0); exact I]. Qed.
Lemma bounds_spec_lower f pts : pts <> [] -> (forall p, In p pts -> f p <= INT_MAX) -> exists p, In p pts /\ f p = lower f pts.
Proof.
  intros N H. unfold lower.
  assert (G : forall l m, (exists p, In p l /\ f p = fold_left (fun m p => if f p <? m then f p else m) l m) \/ fold_left (fun m p => if f p <? m then f p else m) l m = m).
  { induction l as [|p l IH]; intros m; [right; reflexivity|]. cbn [fold_left]. destruct (IH (if f p <? m then f p else m)) as [[q [I E]]|E]; [left; exists q; split; [right; exact I|exact E]|].
    rewrite E. destruct (f p <? m); [left; exists p; split; [left; reflexivity|reflexivity]|right; reflexivity]. }
  destruct (G pts INT_MAX) as [X|X]; [exact X|]. destruct pts as [|p pts]; [congruence|]. exists p. split; [left; reflexivity|].
  pose proof (H p (or_introl eq_refl)). pose proof (proj1 (lower_le f (p :: pts) INT_MAX) p (or_introl eq_refl)). lia.
Qed.

(** *** Association lists *)
Lemma keqb_eq a b : keqb a b = true <-> a = b.
Proof. destruct a, b. unfold keqb. cbn [fst snd]. split; [intros H; f_equal; lia|intros E; injection E; lia]. Qed.
Lemma keqb_refl a : keqb a a = true. Proof. apply keqb_eq. reflexivity. Qed.
Lemma key_dec (a b : key) : {a = b} + {a <> b}. Proof. decide equality; apply Z.eq_dec. Qed.
Lemma find_put k v l k' : find k' (put k v l) = if keqb k' k then Some v else find k' l.
Proof.
  induction l as [|[k0 v0] l IH]; cbn [put find]; [reflexivity|]. destruct (keqb k k0) eqn:E; cbn [find].
  - apply keqb_eq in E. subst k0. destruct (keqb k' k); reflexivity.
  - rewrite IH. destruct (keqb k' k0) eqn:E0; [|reflexivity]. apply keqb_eq in E0. subst k0. destruct (keqb k' k) eqn:E1; [|reflexivity]. apply keqb_eq in E1. subst. rewrite keqb_refl in E. discriminate.
Qed.
Lemma put_keys k v l k' : In k' (map fst (put k v l)) <-> k' = k \/ In k' (map fst l).
Proof.
  induction l as [|[k0 v0] l IH]; cbn [put map In fst]; [intuition|]. destruct (keqb k k0) eqn:E; cbn [map In fst].
  - apply keqb_eq in E. subst. intuition.
  - rewrite IH. intuition.
Qed.
Lemma put_nodup k v l : NoDup (map fst l) -> NoDup (map fst (put k v l)).
Proof.
  induction l as [|[k0 v0] l IH]; cbn [put map fst]; intros H; [repeat constructor; intros []|]. inversion H; subst. destruct (keqb k k0) eqn:E; cbn [map fst].
  - constructor; assumption.
  - constructor; [|apply IH; assumption]. rewrite put_keys. intros [->|I]; [rewrite keqb_refl in E; discriminate|contradiction].
Qed.
Lemma find_in k v l : NoDup (map fst l) -> (find k l = Some v <-> In (k, v) l).
Proof.
  induction l as [|[k0 v0] l IH]; cbn [find map fst]; intros H; [split; [discriminate|intros []]|]. inversion H; subst. destruct (keqb k k0) eqn:E.
  - apply keqb_eq in E. subst k0. split; [intros [= ->]; left; reflexivity|]. intros [[= ->]|I]; [reflexivity|]. exfalso. apply H2. apply in_map_iff. exists (k, v). auto.
  - rewrite IH by assumption. split; [intros I; right; exact I|]. intros [[= -> ->]|I]; [rewrite keqb_refl in E; discriminate|exact I].
Qed.
Lemma find_none k l : find k l = None <-> ~ In k (map fst l).
Proof.
  induction l as [|[k0 v0] l IH]; cbn [find map fst In]; [split; auto|]. destruct (keqb k k0) eqn:E.
  - apply keqb_eq in E. subst. split; [discriminate|intros H; exfalso; apply H; left; reflexivity].
  - rewrite IH. split; [intros H [->|I]; [rewrite keqb_refl in E; discriminate|contradiction]|intros H I; apply H; right; exact I].
Qed.

(** *** The cells of a floor *)
(** A point belongs to the ground of the floor at height [i], or obstructs it. *)
Definition ground (P : params) (i : Z) (p : pt) : bool := Z.abs (i - cz p) <=? floor_height P.
Definition obstructs (P : params) (i : Z) (p : pt) : bool :=
  negb (ground P i p) && (i + floor_height P + floor_tolerance P <? cz p) && (cz p <=? i + robot_height P).
Definition here (k : key) (p : pt) : bool := (cx p =? fst k) && (cy p =? snd k).
Definition content (P : params) (pts : list pt) (i : Z) (k : key) : option Z :=
  if existsb (fun p => here k p && obstructs P i p) pts then Some 1
  else if existsb (fun p => here k p && ground P i p) pts then Some 0 else None.

Lemma floor_find P pts i k : find k (floor P pts i) = content P pts i k.
Proof.
  unfold floor. induction pts as [|p pts IH] using rev_ind; [reflexivity|]. rewrite fold_left_app. cbn [fold_left].
  unfold content in *. rewrite !existsb_app. cbn [existsb]. rewrite !orb_false_r.
  set (l := fold_left (see P i) pts []) in *. unfold see.
  assert (Hk : here k p = keqb k (cx p, cy p)) by (unfold here, keqb; destruct k; cbn [fst snd]; lia).
  rewrite Hk. unfold obstructs, ground. destruct (Z.abs (i - cz p) <=? floor_height P) eqn:G; cbn [negb andb].
  - rewrite andb_false_r, orb_false_r, andb_true_r. destruct (find (cx p, cy p) l) as [v|] eqn:F.
    + destruct (keqb k (cx p, cy p)) eqn:E; [|rewrite orb_false_r; exact IH]. apply keqb_eq in E. subst k. rewrite F in IH. rewrite orb_true_r, F.
      destruct (existsb _ pts); [exact IH|]. destruct (existsb _ pts); [exact IH|discriminate].
    + rewrite find_put. destruct (keqb k (cx p, cy p)) eqn:E; [|rewrite orb_false_r; exact IH]. apply keqb_eq in E. subst k. rewrite F in IH. rewrite orb_true_r.
      destruct (existsb _ pts); [discriminate|reflexivity].
  - rewrite andb_false_r, orb_false_r. destruct ((i + floor_height P + floor_tolerance P <? cz p) && (cz p <=? i + robot_height P)).
    + rewrite find_put. destruct (keqb k (cx p, cy p)); cbn [andb].
      * rewrite orb_true_r. reflexivity.
      * rewrite orb_false_r. exact IH.
    + rewrite andb_false_r, orb_false_r. exact IH.
Qed.
Lemma floor_nodup P pts i : NoDup (map fst (floor P pts i)).
Proof.
  unfold floor. induction pts as [|p pts IH] using rev_ind; [constructor|]. rewrite fold_left_app. cbn [fold_left]. set (l := fold_left (see P i) pts []) in *. unfold see.
  destruct (_ <=? _); [destruct (find _ l); [exact IH|apply put_nodup; exact IH]|]. destruct (_ && _); [apply put_nodup; exact IH|exact IH].
Qed.
Lemma floor_entry P pts i k v : In (k, v) (floor P pts i) -> (v = 0 \/ v = 1) /\ exists p, In p pts /\ cx p = fst k /\ cy p = snd k.
Proof.
  intros I. apply find_in in I; [|apply floor_nodup]. rewrite floor_find in I. unfold content in I.
  destruct (existsb _ pts) eqn:E1; [|destruct (existsb (fun p => here k p && ground P i p) pts) eqn:E2; [|discriminate]].
  - apply existsb_exists in E1. destruct E1 as [p [I1 H1]]. unfold here in H1. split; [injection I; auto|]. exists p. split; [exact I1|lia].
  - apply existsb_exists in E2. destruct E2 as [p [I1 H1]]. unfold here in H1. split; [injection I; auto|]. exists p. split; [exact I1|lia].
Qed.

(** *** Addresses *)
Definition inside (pts : list pt) (k : key) : Prop := lower cx pts <= fst k <= upper cx pts /\ lower cy pts <= snd k <= upper cy pts.
Lemma address_range pts k : inside pts k -> 0 <= address pts k < size pts.
Proof. unfold inside, address, size, width, height. intros [H1 H2]. nia. Qed.
Lemma address_inj pts k k' : inside pts k -> inside pts k' -> address pts k = address pts k' -> k = k'.
Proof.
  unfold inside, address. intros [H1 H2] [H3 H4] E. set (w := width pts) in *. assert (W : w = upper cx pts - lower cx pts + 1) by reflexivity.
  destruct k as [x y], k' as [x' y']. cbn [fst snd] in *.
  assert (y = y') by nia. subst. f_equal. nia.
Qed.
Lemma address_onto pts a : 0 < width pts -> 0 <= a < size pts -> exists k, inside pts k /\ address pts k = a.
Proof.
  intros W H. unfold size in H. exists (lower cx pts + a mod width pts, lower cy pts + a / width pts). unfold inside, address. cbn [fst snd].
  assert (0 <= a / width pts < height pts) by (split; [apply Z.div_pos; lia|apply Z.div_lt_upper_bound; lia]).
  pose proof (Z.mod_pos_bound a (width pts) W) as M. pose proof (Z.div_mod a (width pts) ltac:(lia)) as DM.
  set (q := a / width pts) in *. set (r := a mod width pts) in *. clearbody q r. unfold width, height in *. split; [split; [lia|lia]|]. nia.
Qed.
Lemma point_inside pts p : In p pts -> inside pts (cx p, cy p).
Proof. intros I. split; cbn [fst snd]; apply bounds_in; exact I. Qed.
Lemma floor_inside P pts i m : In m (floor P pts i) -> inside pts (fst m).
Proof.
  destruct m as [k v]. intros I. apply floor_entry in I. destruct I as [_ [p [Ip [E1 E2]]]]. pose proof (point_inside pts p Ip) as X. rewrite E1, E2 in X. destruct k; exact X.
Qed.

Lemma set_cell_run n d a v : 0 <= a < n -> exists d', set_cell n d a v = Ok d' /\ forall b, d' b = if b =? a then v else d b.
Proof. intros H. unfold set_cell. assert (E : (0 <=? a) && (a <? n) = true) by lia. rewrite E. eexists. split; [reflexivity|]. reflexivity. Qed.

(** The map of a floor. *)
Definition drawn (P : params) (pts : list pt) (i : Z) (k : key) : Z :=
  match content P pts i k with None => -1 | Some 0 => 0 | Some _ => 100 end.
Lemma draw_run P pts i : exists d, draw P pts i = Ok d /\ forall k, inside pts k -> d (address pts k) = drawn P pts i k.
Proof.
  unfold draw. set (l := floor P pts i).
  destruct (foldM_prefix (draw_cell pts) (fun pre d => (forall k v, In (k, v) pre -> d (address pts k) = if v =? 0 then 0 else 100) /\
     (forall k, inside pts k -> ~ In k (map fst pre) -> d (address pts k) = -1)) l (fun _ => -1)) as [d [E [H1 H2]]].
  - split; [intros k v []|reflexivity].
  - intros pre [k v] post d El [A B].
    assert (I : In (k, v) l) by (rewrite El; apply in_or_app; right; left; reflexivity).
    destruct (floor_entry P pts i k v I) as [Hv _]. pose proof (floor_inside P pts i _ I) as Ik. cbn [fst] in Ik.
    pose proof (address_range pts k Ik) as R.
    assert (ND : ~ In k (map fst pre)).
    { pose proof (floor_nodup P pts i) as N. fold l in N. rewrite El, map_app in N. cbn [map fst] in N. apply NoDup_remove_2 in N. intros X. apply N. apply in_or_app. left. exact X. }
    assert (W : forall w, exists d', set_cell (size pts) d (address pts k) w = Ok d' /\ (forall k' v', In (k', v') pre -> d' (address pts k') = if v' =? 0 then 0 else 100) /\
       d' (address pts k) = w /\ (forall k', inside pts k' -> ~ In k' (map fst (pre ++ [(k, v)])) -> d' (address pts k') = -1)).
    { intros w. destruct (set_cell_run (size pts) d (address pts k) w R) as [d' [E' D']]. exists d'. split; [exact E'|]. split; [|split].
      - intros k' v' I'. rewrite D'. destruct (Z.eqb_spec (address pts k') (address pts k)) as [Q|Q]; [|apply A; exact I']. exfalso. apply ND.
        assert (I2 : In (k', v') l) by (rewrite El; apply in_or_app; left; exact I'). apply floor_inside in I2. apply (address_inj pts k' k I2 Ik) in Q. subst. apply in_map_iff. exists (k, v'). auto.
      - rewrite D', Z.eqb_refl. reflexivity.
      - intros k' Ik' N'. rewrite map_app in N'. cbn [map fst] in N'. rewrite D'. destruct (Z.eqb_spec (address pts k') (address pts k)) as [Q|Q].
        + apply (address_inj pts k' k Ik' Ik) in Q. subst. exfalso. apply N'. apply in_or_app. right. left. reflexivity.
        + apply B; [exact Ik'|]. intros X. apply N'. apply in_or_app. left. exact X. }
    unfold draw_cell. cbn [fst snd]. destruct Hv as [-> | ->].
    + change (0 =? 0) with true. cbv iota. destruct (W 0) as [d' (E' & A' & K' & B')]. exists d'. split; [exact E'|]. split; [|exact B'].
      intros k' v' I'. apply in_app_or in I'. destruct I' as [I'|[[= <- <-]|[]]]; [apply A'; exact I'|rewrite K'; reflexivity].
    + change (1 =? 0) with false. change (1 =? 1) with true. cbv iota. destruct (W 100) as [d' (E' & A' & K' & B')]. exists d'. split; [exact E'|]. split; [|exact B'].
      intros k' v' I'. apply in_app_or in I'. destruct I' as [I'|[[= <- <-]|[]]]; [apply A'; exact I'|rewrite K'; reflexivity].
  - exists d. split; [exact E|]. intros k Ik. unfold drawn. rewrite <- floor_find. destruct (find k (floor P pts i)) as [v|] eqn:F.
    + apply find_in in F; [|apply floor_nodup]. rewrite (H1 k v F). destruct (floor_entry P pts i k v F) as [[-> | ->] _]; reflexivity.
    + apply H2; [exact Ik|]. apply find_none. exact F.
Qed.

Lemma foldM_collect {A B} (c : A -> bool) (f : A -> outcome B) : (forall a, exists b, f a = Ok b) ->
  forall l acc, exists r, foldM (fun acc a => if c a then do b <- f a; Ok (acc ++ [(a, b)]) else Ok acc) l acc = Ok (acc ++ r) /\
    map fst r = filter c l /\ Forall (fun ab => f (fst ab) = Ok (snd ab)) r.
Proof.
  intros Hf. induction l as [|a l IH]; intros acc.
  - exists []. rewrite app_nil_r. cbn. auto.
  - cbn [foldM filter]. destruct (c a).
    + destruct (Hf a) as [b Eb]. rewrite Eb. cbn [bind]. destruct (IH (acc ++ [(a, b)])) as [r (E & M & F)]. exists ((a, b) :: r). split; [rewrite E, <- app_assoc; reflexivity|].
      cbn [map fst]. split; [congruence|constructor; assumption].
    + cbn [bind]. apply IH.
Qed.
Lemma candidates_run P pts : exists maps, candidates P pts = Ok maps /\ map fst maps = filter (is_floor P pts) (heights pts) /\
  Forall (fun m => draw P pts (fst m) = Ok (snd m)) maps.
Proof.
  unfold candidates. destruct (foldM_collect (is_floor P pts) (draw P pts)) with (l := heights pts) (acc := @nil (Z * grid_data)) as [r (E & M & F)].
  - intros a. destruct (draw_run P pts a) as [d [E _]]. eauto.
  - exists r. auto.
Qed.

(** *** Merging *)
Lemma merge_maps P n : forall rest prev A, fst (merge P n prev rest A) =
  (fix go prev rest := match rest with [] => [prev] | cur :: t =>
     (if fst prev - fst cur <? 2 then (fst prev, merge_upper (snd prev) (snd cur)) else prev) ::
     go (if fst prev - fst cur <? 2 then (fst cur, merge_lower (snd prev) (snd cur)) else cur) t end) prev rest.
Proof.
  induction rest as [|cur t IH]; intros prev A; [reflexivity|]. cbn [merge]. rewrite <- (IH _ (if fst prev - fst cur <? 2 then set_area (set_area A (height_of P (fst cur)) (count_free n (snd (if fst prev - fst cur <? 2 then (fst cur, merge_lower (snd prev) (snd cur)) else cur)))) (height_of P (fst prev)) (count_free n (snd (if fst prev - fst cur <? 2 then (fst prev, merge_upper (snd prev) (snd cur)) else prev))) else A)).
  destruct (merge _ _ _ t _). reflexivity.
Qed.

(** Specification of merging, for the drawn maps [D] of the heights [hs]: height [i] is merged with the consecutive candidate heights above it. *)
Definition run_of (hs : list Z) (i j : Z) : Prop := i <= j /\ forall x, i <= x <= j -> In x hs.
Definition freed (hs : list Z) (D : Z -> grid_data) (i a : Z) : Prop := exists j, run_of hs i j /\ D j a = 0.
(** The cell of the merged map at height [i]. *)
Definition merged_cell (hs : list Z) (D : Z -> grid_data) (i a v : Z) : Prop :=
  (freed hs D i a -> v = if existsb (Z.eqb (i - 1)) hs then -1 else 0) /\ (~ freed hs D i a -> v = D i a).
Fixpoint desc (top : Z) (l : list Z) : Prop := match l with [] => True | x :: t => x < top /\ desc x t end.
Lemma desc_in l : forall top x, desc top l -> In x l -> x < top.
Proof. induction l as [|y l IH]; intros top x H I; [destruct I|]. cbn [desc] in H. destruct H as [H1 H2], I as [->|I]; [lia|]. specialize (IH y x H2 I). lia. Qed.

Lemma merge_spec P n (D : Z -> grid_data) : forall (rest : list (Z * grid_data)) done (prev : Z * grid_data) A (l : list (Z * grid_data)) A',
  desc (fst prev) (map fst rest) -> (forall x, In x done -> fst prev < x) ->
  Forall (fun m => snd m = D (fst m)) rest ->
  (forall a, (freed (done ++ [fst prev]) D (fst prev) a -> snd prev a = 0) /\ (~ freed (done ++ [fst prev]) D (fst prev) a -> snd prev a = D (fst prev) a)) ->
  (forall a, freed (done ++ [fst prev]) D (fst prev) a \/ ~ freed (done ++ [fst prev]) D (fst prev) a) ->
  merge P n prev rest A = (l, A') ->
  map fst l = fst prev :: map fst rest /\
  Forall (fun m : Z * grid_data => forall a, merged_cell (done ++ fst prev :: map fst rest) D (fst m) a (snd m a)) l.
Proof.
  induction rest as [|cur t IH]; intros done prev A l A' Hd Hdone HD Hp Hdec E.
  - cbn [merge] in E. injection E as <- _. split; [reflexivity|]. constructor; [|constructor]. intros a. cbn [map]. split.
    + intros F. rewrite (proj1 (Hp a) F). replace (existsb _ _) with false; [reflexivity|]. symmetry. apply not_true_is_false. intros X. apply existsb_exists in X. destruct X as [x [I X]]. apply in_app_or in I.
      destruct I as [I|[<-|[]]]; [apply Hdone in I; lia|lia].
    + intros F. apply (proj2 (Hp a) F).
  - cbn [map desc] in Hd. destruct Hd as [Hlt Hd]. inversion HD as [|? ? Hcur Ht]; subst. cbn [merge] in E.
    set (adj := fst prev - fst cur <? 2) in *.
    set (prev' := if adj then (fst prev, merge_upper (snd prev) (snd cur)) else prev) in *.
    set (cur' := if adj then (fst cur, merge_lower (snd prev) (snd cur)) else cur) in *.
    assert (Fp : fst prev' = fst prev) by (unfold prev'; destruct adj; reflexivity).
    assert (Fc : fst cur' = fst cur) by (unfold cur'; destruct adj; reflexivity).
    match goal with E : context [merge P n cur' t ?X] |- _ => set (A1 := X) in *; destruct (merge P n cur' t A1) as [l0 A0] eqn:E0 end. injection E as <- <-.
    (* freed cells of the lower floor *)
    assert (FR : forall a, freed ((done ++ [fst prev]) ++ [fst cur]) D (fst cur) a <-> D (fst cur) a = 0 \/ (adj = true /\ freed (done ++ [fst prev]) D (fst prev) a)).
    { intros a. split.
      - intros [j [[L R] Z0]]. destruct (Z.eq_dec j (fst cur)) as [->|N]; [left; exact Z0|]. right.
        assert (I : In (fst cur + 1) ((done ++ [fst prev]) ++ [fst cur])) by (apply R; lia).
        assert (Ep : fst prev = fst cur + 1).
        { apply in_app_or in I. destruct I as [I|[I|[]]]; [|lia]. apply in_app_or in I. destruct I as [I|[I|[]]]; [apply Hdone in I; lia|lia]. }
        split; [unfold adj; lia|]. exists j. split; [split; [lia|]|exact Z0]. intros x Hx. assert (I2 : In x ((done ++ [fst prev]) ++ [fst cur])) by (apply R; lia).
        apply in_app_or in I2. destruct I2 as [I2|[I2|[]]]; [exact I2|lia].
      - intros [Z0|[Ea [j [[L R] Z0]]]].
        + exists (fst cur). split; [split; [lia|]|exact Z0]. intros x Hx. apply in_or_app. right. left. lia.
        + exists j. split; [split; [lia|]|exact Z0]. intros x Hx. apply in_or_app. destruct (Z.eq_dec x (fst cur)) as [->|N]; [right; left; reflexivity|left]. apply R. unfold adj in Ea. lia. }
    destruct (IH (done ++ [fst prev]) cur' A1 l0 A0) with (6 := E0) as [M F].
    + rewrite Fc. exact Hd.
    + rewrite Fc. intros x I. apply in_app_or in I. destruct I as [I|[<-|[]]]; [apply Hdone in I; lia|lia].
    + exact Ht.
    + rewrite Fc. intros a. unfold cur'. destruct adj eqn:Ea; cbn [snd].
      * unfold merge_lower. rewrite Hcur. split; intros X.
        -- apply FR in X. destruct X as [X|[_ X]]; [rewrite X; reflexivity|]. rewrite (proj1 (Hp a) X). destruct (Z.eqb_spec (D (fst cur) a) 0); [assumption|reflexivity].
        -- destruct (Z.eqb_spec (D (fst cur) a) 0) as [Z0|Z0]; [exfalso; apply X, FR; left; exact Z0|]. cbn [negb andb].
           destruct (Hdec a) as [Y|Y]; [exfalso; apply X, FR; right; auto|]. rewrite (proj2 (Hp a) Y).
           destruct (Z.eqb_spec (D (fst prev) a) 0) as [Z1|Z1]; [|reflexivity]. exfalso. apply Y. exists (fst prev). split; [split; [lia|]|exact Z1]. intros x Hx. apply in_or_app. right. left. lia.
      * rewrite Hcur. split; intros X; [|reflexivity]. apply FR in X. destruct X as [X|[X _]]; [exact X|congruence].
    + rewrite Fc. intros a. destruct (Z.eq_dec (D (fst cur) a) 0) as [Z0|Z0]; [left; apply FR; left; exact Z0|]. destruct adj eqn:Ea.
      * destruct (Hdec a) as [Y|Y]; [left; apply FR; right; auto|right]. intros X. apply FR in X. destruct X as [X|[_ X]]; contradiction.
      * right. intros X. apply FR in X. destruct X as [X|[X _]]; [contradiction|congruence].
    + rewrite Fc in M, F. rewrite <- app_assoc in F. split.
      * cbn [map]. rewrite Fp, M. reflexivity.
      * constructor; [|exact F]. rewrite Fp. intros a.
        assert (FE : freed (done ++ fst prev :: fst cur :: map fst t) D (fst prev) a <-> freed (done ++ [fst prev]) D (fst prev) a).
        { split; intros [j [[L R] Z0]]; exists j; (split; [split; [exact L|]|exact Z0]); intros x Hx; specialize (R x Hx).
          - apply in_app_or in R. apply in_or_app. destruct R as [R|[R|R]]; [left; exact R|right; left; exact R|]. exfalso. cbn [In] in R. destruct R as [R|R]; [lia|]. pose proof (desc_in _ _ _ Hd R). lia.
          - apply in_app_or in R. apply in_or_app. destruct R as [R|[R|[]]]; [left; exact R|right; left; exact R]. }
        assert (EX : existsb (Z.eqb (fst prev - 1)) (done ++ fst prev :: fst cur :: map fst t) = adj).
        { unfold adj. apply eq_true_iff_eq. rewrite existsb_exists. split.
          - intros [x [I X]]. apply in_app_or in I. destruct I as [I|[I|[I|I]]]; [apply Hdone in I; lia|lia|lia|pose proof (desc_in _ _ _ Hd I); lia].
          - intros X. exists (fst cur). split; [apply in_or_app; right; right; left; reflexivity|lia]. }
        unfold merged_cell. cbn [map]. rewrite FE, EX. unfold prev'. destruct adj eqn:Ea; cbn [snd].
        -- unfold merge_upper. split; intros X.
           ++ rewrite (proj1 (Hp a) X). reflexivity.
           ++ rewrite (proj2 (Hp a) X). destruct (Z.eqb_spec (D (fst prev) a) 0) as [Z1|Z1]; [|reflexivity]. exfalso. apply X. exists (fst prev). split; [split; [lia|]|exact Z1]. intros x Hx. apply in_or_app. right. left. lia.
        -- exact (Hp a).
Qed.

(** The areas after merging: with exact heights, the number of free cells of every merged map. *)
Lemma merge_areas P n (ok : Z -> Prop) : (forall h, ok h -> height_of P h = h) -> forall (rest : list (Z * grid_data)) (prev : Z * grid_data) A (l : list (Z * grid_data)) A',
  ok (fst prev) -> Forall ok (map fst rest) -> desc (fst prev) (map fst rest) -> merge P n prev rest A = (l, A') ->
  A (fst prev) = count_free n (snd prev) -> Forall (fun m : Z * grid_data => A (fst m) = count_free n (snd m)) rest ->
  Forall (fun m : Z * grid_data => A' (fst m) = count_free n (snd m)) l /\ (forall h, fst prev < h -> A' h = A h).
Proof.
  intros Hh. induction rest as [|cur t IH]; intros prev A l A' Op Or Hd E Hp Hr.
  - cbn [merge] in E. injection E as <- <-. split; [constructor; [exact Hp|constructor]|reflexivity].
  - cbn [map desc] in Hd. destruct Hd as [Hlt Hd]. inversion Or as [|? ? Oc Ot]; subst. inversion Hr as [|? ? Hc Ht]; subst. cbn [merge] in E.
    set (adj := fst prev - fst cur <? 2) in *.
    set (prev' := if adj then (fst prev, merge_upper (snd prev) (snd cur)) else prev) in *.
    set (cur' := if adj then (fst cur, merge_lower (snd prev) (snd cur)) else cur) in *.
    assert (Fp : fst prev' = fst prev) by (unfold prev'; destruct adj; reflexivity).
    assert (Fc : fst cur' = fst cur) by (unfold cur'; destruct adj; reflexivity).
    match goal with E : context [merge P n cur' t ?X] |- _ => set (A1 := X) in *; destruct (merge P n cur' t A1) as [l0 A0] eqn:E0 end. injection E as <- <-.
    assert (N1 : A1 (fst cur) = count_free n (snd cur')).
    { unfold A1, cur'. destruct adj; [|exact Hc]. unfold set_area. rewrite !Hh by assumption. destruct (Z.eqb_spec (fst cur) (fst prev)); [lia|]. rewrite Z.eqb_refl. reflexivity. }
    assert (N2 : A1 (fst prev) = count_free n (snd prev')).
    { unfold A1, prev'. destruct adj; [|exact Hp]. unfold set_area. rewrite !Hh by assumption. rewrite Z.eqb_refl. reflexivity. }
    assert (N3 : forall h, h <> fst prev -> h <> fst cur -> A1 h = A h).
    { intros h X Y. unfold A1. destruct adj; [|reflexivity]. unfold set_area. rewrite !Hh by assumption. destruct (Z.eqb_spec h (fst prev)); [lia|]. destruct (Z.eqb_spec h (fst cur)); [lia|]. reflexivity. }
    destruct (IH cur' A1 l0 A0) with (4 := E0) as [F G].
    + rewrite Fc. exact Oc.
    + exact Ot.
    + rewrite Fc. exact Hd.
    + rewrite Fc. exact N1.
    + rewrite Forall_forall in *. intros m I. rewrite N3; [apply Ht; exact I| |]; pose proof (desc_in _ _ (fst m) Hd (in_map fst _ _ I)); lia.
    + rewrite Fc in G. split.
      * constructor; [|exact F]. rewrite Fp, G by lia. exact N2.
      * intros h Hx. rewrite G by lia. apply N3; lia.
Qed.

(** *** The number of free cells *)
Lemma range_excl_NoDup a n : NoDup (range_excl a n).
Proof. unfold range_excl. apply range_incl_NoDup. Qed.
Lemma count_free_draw P pts i d : 0 < width pts -> draw P pts i = Ok d -> count_free (size pts) d = count0 (floor P pts i).
Proof.
  intros W E. destruct (draw_run P pts i) as [d' [E' H]]. rewrite E in E'. injection E' as <-. unfold count_free, count0. f_equal.
  rewrite <- (map_length (fun m => address pts (fst m)) (filter _ (floor P pts i))). apply Permutation_length, NoDup_Permutation.
  - apply NoDup_filter, range_excl_NoDup.
  - pose proof (floor_nodup P pts i) as N. pose proof (fun m => floor_inside P pts i m) as Q. set (l := floor P pts i) in *. clearbody l. revert N Q. clear -l. induction l as [|[k v] l IH]; intros N Q; [constructor|].
    cbn [map fst] in N. inversion N; subst. cbn [filter snd]. assert (X : NoDup (map (fun m => address pts (fst m)) (filter (fun m => snd m =? 0) l))) by (apply IH; [assumption|intros m I; apply Q; right; exact I]).
    destruct (v =? 0); [|exact X]. cbn [map fst]. constructor; [|exact X]. intros Y. apply in_map_iff in Y. destruct Y as [[k' v'] [Ea Y]]. apply filter_In in Y. destruct Y as [Y _]. cbn [fst] in Ea.
    apply address_inj in Ea; [|exact (Q (k', v') (or_intror Y))|exact (Q (k, v) (or_introl eq_refl))]. subst. apply H1. apply in_map_iff. exists (k, v'). auto.
  - intros a. rewrite filter_In, in_map_iff, in_range_excl. split.
    + intros [R Z0]. destruct (address_onto pts a W R) as [k [Ik Ea]]. subst a. rewrite H in Z0 by exact Ik. unfold drawn in Z0. rewrite <- floor_find in Z0. destruct (find k (floor P pts i)) as [v|] eqn:F; [|discriminate].
      apply find_in in F; [|apply floor_nodup]. exists (k, v). split; [reflexivity|]. apply filter_In. split; [exact F|]. destruct (floor_entry P pts i k v F) as [[-> | ->] _]; [reflexivity|discriminate].
    + intros [[k v] [Ea Y]]. apply filter_In in Y. destruct Y as [Y V]. cbn [fst snd] in *. subst a. pose proof (floor_inside P pts i _ Y) as Ik. cbn [fst] in Ik. split; [apply address_range; exact Ik|].
      rewrite H by exact Ik. unfold drawn. rewrite <- floor_find. apply find_in in Y; [|apply floor_nodup]. rewrite Y. assert (v = 0) by lia. subst. reflexivity.
Qed.

(** *** Widening *)
Lemma sq_small x y : x * x + y * y <= 36 -> Z.abs x <= 6 /\ Z.abs y <= 6.
Proof. intros H. split; nia. Qed.
(** Squared distance of two cells. *)
Definition dist2 (w a b : Z) : Z := (a mod w - b mod w) * (a mod w - b mod w) + (a / w - b / w) * (a / w - b / w).
Section Widen.
Variables w h : Z.
Hypothesis Hw : 0 < w.
Hypothesis Hh : 0 < h.
Hypothesis Hn : w * h < 2 ^ 31.

Lemma neighbour_some a k b : 0 <= a < w * h -> Z.abs (fst k) <= 6 -> Z.abs (snd k) <= 6 ->
  (neighbour w h a k = Some b <-> 0 <= b < w * h /\ b mod w = a mod w + fst k /\ b / w = a / w + snd k).
Proof.
  intros Ha K1 K2. assert (W31 : w < 2 ^ 31 /\ h < 2 ^ 31) by nia.
  assert (Hq : 0 <= a / w < h) by (split; [apply Z.div_pos; lia|apply Z.div_lt_upper_bound; lia]). pose proof (Z.mod_pos_bound a w Hw) as Hr.
  unfold neighbour. set (q := a / w) in *. set (r := a mod w) in *. clearbody q r.
  assert (U : forall z, -6 <= z < 2 ^ 31 + 6 -> u32 z = if z <? 0 then z + 2 ^ 32 else z).
  { intros z Hz. unfold u32. destruct (Z.ltb_spec z 0); [|apply Z.mod_small; lia]. symmetry. apply Z.mod_unique_pos with (-1); lia. }
  rewrite !U by lia. split.
  - destruct ((w <=? _) || (h <=? _)) eqn:E; [discriminate|]. intros X. injection X as X.
    assert (0 <= r + fst k < w /\ 0 <= q + snd k < h) by (destruct (Z.ltb_spec (r + fst k) 0), (Z.ltb_spec (q + snd k) 0); lia).
    destruct (Z.ltb_spec (r + fst k) 0); [lia|]. destruct (Z.ltb_spec (q + snd k) 0); [lia|].
    subst b. split; [nia|]. split.
    + symmetry. apply Z.mod_unique_pos with (q + snd k); lia.
    + symmetry. apply Z.div_unique_pos with (r + fst k); lia.
  - intros [Hb [M D]]. assert (Hq' : 0 <= b / w < h) by (split; [apply Z.div_pos; lia|apply Z.div_lt_upper_bound; lia]). pose proof (Z.mod_pos_bound b w Hw) as Hr'. pose proof (Z.div_mod b w ltac:(lia)) as DM.
    rewrite M, D in *. destruct (Z.ltb_spec (r + fst k) 0); [lia|]. destruct (Z.ltb_spec (q + snd k) 0); [lia|].
    replace ((w <=? r + fst k) || (h <=? q + snd k)) with false by lia. f_equal. lia.
Qed.
Lemma window_in r k : 0 <= r -> (In k (window r) <-> fst k * fst k + snd k * snd k <= r * r).
Proof.
  intros R. unfold window. rewrite filter_In. destruct k as [x y]. cbn [fst snd]. split; [intros [_ H]; lia|]. intros H. split; [|lia]. apply in_prod_iff. rewrite !in_range_incl. nia.
Qed.
Lemma window_small r k : 0 <= r <= 6 -> In k (window r) -> Z.abs (fst k) <= 6 /\ Z.abs (snd k) <= 6.
Proof. intros R I. apply window_in in I; [|lia]. split; nia. Qed.

Variable cp : grid_data.
Definition clear_of (a f : Z) : Prop := forall b, 0 <= b < w * h -> cp b = 100 -> f * f <= dist2 w a b.

Lemma narrow_run a : 0 <= a < w * h -> cp a = 0 ->
  exists f, foldM (narrow w h cp a) (window 6) 6 = Ok f /\ 1 <= f <= 6 /\ clear_of a f /\ (f = 6 \/ exists b, 0 <= b < w * h /\ cp b = 100 /\ dist2 w a b < (f + 1) * (f + 1)).
Proof.
  intros Ha Za.
  destruct (foldM_prefix (narrow w h cp a) (fun pre f => 1 <= f <= 6 /\
     (forall k b, In k pre -> neighbour w h a k = Some b -> cp b = 100 -> f * f <= fst k * fst k + snd k * snd k) /\
     (f = 6 \/ exists b, 0 <= b < w * h /\ cp b = 100 /\ dist2 w a b < (f + 1) * (f + 1))) (window 6) 6) as [f [E [H1 [H2 H3]]]].
  - split; [lia|]. split; [intros k b []|left; reflexivity].
  - intros pre k post f El [F1 [F2 F3]]. assert (I : In k (window 6)) by (rewrite El; apply in_or_app; right; left; reflexivity).
    destruct (window_small 6 k ltac:(lia) I) as [K1 K2]. unfold narrow. destruct (neighbour w h a k) as [b|] eqn:N.
    + pose proof (proj1 (neighbour_some a k b Ha K1 K2) N) as [Hb [M D]]. unfold get_cell. replace ((0 <=? b) && (b <? w * h)) with true by lia. cbn [bind]. set (sq := fst k * fst k + snd k * snd k).
      assert (D2 : dist2 w a b = sq) by (unfold dist2, sq; rewrite M, D; nia).
      destruct ((cp b =? 100) && (sq <? f * f)) eqn:C.
      * assert (S1 : 1 <= sq). { unfold sq. assert (~ (fst k = 0 /\ snd k = 0)); [|nia]. intros [X Y]. rewrite X, Z.add_0_r in M. rewrite Y, Z.add_0_r in D. pose proof (Z.div_mod a w ltac:(lia)). pose proof (Z.div_mod b w ltac:(lia)). assert (a = b) by lia. subst. lia. }
        pose proof (Z.sqrt_spec sq ltac:(lia)) as [Q1 Q2]. pose proof (Z.sqrt_nonneg sq) as Q0. set (r := Z.sqrt sq) in *. clearbody r. unfold Z.succ in Q2.
        assert (r < f) by nia. exists r. split; [reflexivity|]. split; [nia|]. split.
        -- intros k' b' I' N' C'. apply in_app_or in I'. destruct I' as [I'|[<-|[]]]; [specialize (F2 k' b' I' N' C'); nia|fold sq; lia].
        -- right. exists b. split; [exact Hb|]. split; [lia|]. lia.
      * exists f. split; [reflexivity|]. split; [exact F1|]. split; [|exact F3]. intros k' b' I' N' C'. apply in_app_or in I'. destruct I' as [I'|[<-|[]]]; [exact (F2 k' b' I' N' C')|]. rewrite N in N'. injection N' as <-. fold sq. lia.
    + exists f. split; [reflexivity|]. split; [exact F1|]. split; [|exact F3]. intros k' b' I' N' C'. apply in_app_or in I'. destruct I' as [I'|[<-|[]]]; [exact (F2 k' b' I' N' C')|congruence].
  - exists f. split; [exact E|]. split; [exact H1|]. split; [|exact H3]. intros b Hb C.
    destruct (Z.le_gt_cases (dist2 w a b) 36) as [L|L]; [|nia].
    specialize (H2 (b mod w - a mod w, b / w - a / w) b). cbn [fst snd] in H2. unfold dist2 in *.
    assert (L' : (b mod w - a mod w) * (b mod w - a mod w) + (b / w - a / w) * (b / w - a / w) <= 36) by nia.
    destruct (sq_small _ _ L') as [S1 S2].
    assert (I : In (b mod w - a mod w, b / w - a / w) (window 6)) by (apply window_in; cbn [fst snd]; lia).
    assert (N : neighbour w h a (b mod w - a mod w, b / w - a / w) = Some b) by (apply neighbour_some; cbn [fst snd]; [exact Ha|exact S1|exact S2|split; [exact Hb|lia]]).
    specialize (H2 I N C). nia.
Qed.

(** Cells made free from the free cell [a]. *)
Definition reached (a b : Z) : Prop := cp a = 0 /\ exists r, 0 <= r <= 5 /\ dist2 w a b <= r * r /\ clear_of a (r + 1).
Lemma widen_at_run d a : 0 <= a < w * h ->
  exists d', widen_at w h cp d a = Ok d' /\ forall b, 0 <= b < w * h ->
    (cp b <> 100 /\ reached a b -> d' b = 0) /\ (~ (cp b <> 100 /\ reached a b) -> d' b = d b).
Proof.
  intros Ha. unfold widen_at, get_cell. replace ((0 <=? a) && (a <? w * h)) with true by lia. cbn [bind]. destruct (Z.eqb_spec (cp a) 0) as [Za|Za].
  2:{ exists d. split; [reflexivity|]. intros b Hb. split; [intros [_ [X _]]; contradiction|reflexivity]. }
  destruct (narrow_run a Ha Za) as [f (E & F1 & F2 & F3)]. rewrite E. cbn [bind].
  destruct (foldM_prefix (widen_cell w h cp a) (fun pre d' => forall b, 0 <= b < w * h ->
     (cp b <> 100 /\ In (b mod w - a mod w, b / w - a / w) pre -> d' b = 0) /\ (~ (cp b <> 100 /\ In (b mod w - a mod w, b / w - a / w) pre) -> d' b = d b)) (window (f - 1)) d) as [d' [E' H]].
  - intros b Hb. split; [intros [_ []]|reflexivity].
  - intros pre k post d1 El H1. assert (I : In k (window (f - 1))) by (rewrite El; apply in_or_app; right; left; reflexivity).
    destruct (window_small (f - 1) k ltac:(lia) I) as [K1 K2]. unfold widen_cell.
    assert (NB : forall b, 0 <= b < w * h -> (b mod w - a mod w, b / w - a / w) = k -> neighbour w h a k = Some b).
    { intros b Hb Ek. apply neighbour_some; [exact Ha|exact K1|exact K2|]. rewrite <- Ek. cbn [fst snd]. split; [exact Hb|lia]. }
    destruct (neighbour w h a k) as [b0|] eqn:N.
    + pose proof (proj1 (neighbour_some a k b0 Ha K1 K2) N) as [Hb0 [M D]]. unfold get_cell. replace ((0 <=? b0) && (b0 <? w * h)) with true by lia. cbn [bind].
      assert (Ek : (b0 mod w - a mod w, b0 / w - a / w) = k) by (destruct k; cbn [fst snd] in *; f_equal; lia).
      destruct (Z.eqb_spec (cp b0) 100) as [C|C].
      * exists d1. split; [reflexivity|]. intros b Hb. destruct (H1 b Hb) as [A B]. split.
        -- intros [X Y]. apply A. split; [exact X|]. apply in_app_or in Y. destruct Y as [Y|[Y|[]]]; [exact Y|]. specialize (NB b Hb (eq_sym Y)). injection NB as <-. contradiction.
        -- intros X. apply B. intros [Y Y']. apply X. split; [exact Y|apply in_or_app; left; exact Y'].
      * destruct (set_cell_run (w * h) d1 b0 0 Hb0) as [d2 [E2 D2]]. exists d2. split; [exact E2|]. intros b Hb. destruct (H1 b Hb) as [A B]. rewrite D2. destruct (Z.eqb_spec b b0) as [->|Nb].
        -- split; [reflexivity|]. intros X. exfalso. apply X. split; [exact C|apply in_or_app; right; left; symmetry; exact Ek].
        -- split.
           ++ intros [X Y]. apply A. split; [exact X|]. apply in_app_or in Y. destruct Y as [Y|[Y|[]]]; [exact Y|]. specialize (NB b Hb (eq_sym Y)). congruence.
           ++ intros X. apply B. intros [Y Y']. apply X. split; [exact Y|apply in_or_app; left; exact Y'].
    + exists d1. split; [reflexivity|]. intros b Hb. destruct (H1 b Hb) as [A B]. split.
      * intros [X Y]. apply A. split; [exact X|]. apply in_app_or in Y. destruct Y as [Y|[Y|[]]]; [exact Y|]. specialize (NB b Hb (eq_sym Y)). congruence.
      * intros X. apply B. intros [Y Y']. apply X. split; [exact Y|apply in_or_app; left; exact Y'].
  - exists d'. split; [exact E'|]. intros b Hb. destruct (H b Hb) as [A B].
    assert (R : reached a b <-> In (b mod w - a mod w, b / w - a / w) (window (f - 1))).
    { rewrite window_in by lia. cbn [fst snd]. unfold reached, dist2. split.
      - intros [_ [r (R1 & R2 & R3)]]. assert (r <= f - 1); [|nia]. destruct F3 as [->|[c (Hc & Cc & Dc)]]; [lia|]. specialize (R3 c Hc Cc). nia.
      - intros X. split; [exact Za|]. exists (f - 1). split; [lia|]. split; [lia|]. replace (f - 1 + 1) with f by lia. exact F2. }
    rewrite <- R in A, B. split; [exact A|exact B].
Qed.
Theorem widen_run : exists d, widen w h cp = Ok d /\ forall b, 0 <= b < w * h ->
  ((cp b <> 100 /\ exists a, 0 <= a < w * h /\ reached a b) -> d b = 0) /\
  (~ (cp b <> 100 /\ exists a, 0 <= a < w * h /\ reached a b) -> d b = cp b).
Proof.
  unfold widen.
  destruct (foldM_prefix (widen_at w h cp) (fun pre d => forall b, 0 <= b < w * h ->
    ((cp b <> 100 /\ exists a, In a pre /\ reached a b) -> d b = 0) /\ (~ (cp b <> 100 /\ exists a, In a pre /\ reached a b) -> d b = cp b)) (range_excl 0 (w * h)) cp) as [d [E H]].
  - intros b Hb. split; [intros [_ [a [[] _]]]|reflexivity].
  - intros pre a post d El H. assert (I : In a (range_excl 0 (w * h))) by (rewrite El; apply in_or_app; right; left; reflexivity). apply in_range_excl in I.
    destruct (widen_at_run d a I) as [d' [E' D]]. exists d'. split; [exact E'|]. intros b Hb. destruct (H b Hb) as [A B], (D b Hb) as [A' B'].
    assert (Dec : (cp b <> 100 /\ reached a b) \/ ~ (cp b <> 100 /\ reached a b)).
    { destruct (Z.eq_dec (cp b) 100) as [C|C]; [right; tauto|]. unfold reached. destruct (Z.eq_dec (cp a) 0) as [Za|Za]; [|right; tauto].
      destruct (narrow_run a I Za) as [f (_ & F1 & F2 & F3)]. destruct (Z.le_gt_cases (dist2 w a b) ((f - 1) * (f - 1))) as [L|L].
      - left. split; [exact C|]. split; [exact Za|]. exists (f - 1). split; [lia|]. split; [lia|]. replace (f - 1 + 1) with f by lia. exact F2.
      - right. intros [_ [_ [r (R1 & R2 & R3)]]]. assert (r <= f - 1); [|nia]. destruct F3 as [->|[c (Hc & Cc & Dc)]]; [lia|]. specialize (R3 c Hc Cc). nia. }
    destruct Dec as [Y|Y].
    + split; [intros _; apply A'; exact Y|]. intros X. exfalso. apply X. split; [apply Y|]. exists a. split; [apply in_or_app; right; left; reflexivity|apply Y].
    + rewrite (B' Y). split.
      * intros [C [a0 [Ia R]]]. apply A. split; [exact C|]. exists a0. split; [|exact R]. apply in_app_or in Ia. destruct Ia as [Ia|[<-|[]]]; [exact Ia|]. exfalso. apply Y. auto.
      * intros X. apply B. intros [C [a0 [Ia R]]]. apply X. split; [exact C|]. exists a0. split; [apply in_or_app; left; exact Ia|exact R].
  - exists d. split; [exact E|]. intros b Hb. destruct (H b Hb) as [A B]. split.
    + intros [C [a [Ia R]]]. apply A. split; [exact C|]. exists a. split; [apply in_range_excl; exact Ia|exact R].
    + intros X. apply B. intros [C [a [Ia R]]]. apply X. split; [exact C|]. exists a. split; [apply in_range_excl in Ia; exact Ia|exact R].
Qed.
Lemma reached_dec a b : 0 <= a < w * h -> reached a b \/ ~ reached a b.
Proof.
  intros I. unfold reached. destruct (Z.eq_dec (cp a) 0) as [Za|Za]; [|right; tauto].
  destruct (narrow_run a I Za) as [f (_ & F1 & F2 & F3)]. destruct (Z.le_gt_cases (dist2 w a b) ((f - 1) * (f - 1))) as [L|L].
  - left. split; [exact Za|]. exists (f - 1). split; [lia|]. split; [lia|]. replace (f - 1 + 1) with f by lia. exact F2.
  - right. intros [_ [r (R1 & R2 & R3)]]. assert (r <= f - 1); [|nia]. destruct F3 as [->|[c (Hc & Cc & Dc)]]; [lia|]. specialize (R3 c Hc Cc). nia.
Qed.
Lemma widen_dec b : (exists a, 0 <= a < w * h /\ reached a b) \/ ~ (exists a, 0 <= a < w * h /\ reached a b).
Proof.
  assert (G : forall l, (forall a, In a l -> 0 <= a < w * h) -> (exists a, In a l /\ reached a b) \/ ~ (exists a, In a l /\ reached a b)).
  { induction l as [|a l IH]; intros R; [right; intros [a [[] _]]|]. destruct (reached_dec a b (R a (or_introl eq_refl))) as [X|X]; [left; exists a; split; [left; reflexivity|exact X]|].
    destruct (IH (fun x I => R x (or_intror I))) as [[a' [I Y]]|Y]; [left; exists a'; split; [right; exact I|exact Y]|]. right. intros [a' [[<-|I] Z0]]; [contradiction|]. apply Y. exists a'. auto. }
  destruct (G (range_excl 0 (w * h))) as [[a [I X]]|X]; [intros a I; apply in_range_excl; exact I|left; exists a; split; [apply in_range_excl; exact I|exact X]|].
  right. intros [a [I Y]]. apply X. exists a. split; [apply in_range_excl; exact I|exact Y].
Qed.
End Widen.

(** *** Composition *)
Definition D_of (P : params) (pts : list pt) (i : Z) : grid_data := match draw P pts i with Ok d => d | UB => fun _ => 0 end.
Lemma draw_D P pts i : draw P pts i = Ok (D_of P pts i).
Proof. unfold D_of. destruct (draw_run P pts i) as [d [E _]]. rewrite E. reflexivity. Qed.
Lemma D_of_spec P pts i k : inside pts k -> D_of P pts i (address pts k) = drawn P pts i k.
Proof. unfold D_of. destruct (draw_run P pts i) as [d [E H]]. rewrite E. apply H. Qed.

Definition floors (P : params) (pts : list pt) : list Z := filter (is_floor P pts) (heights pts).
Fixpoint asc (lo : Z) (l : list Z) : Prop := match l with [] => True | x :: t => lo < x /\ asc x t end.
Lemma asc_weaken l : forall lo lo', lo' <= lo -> asc lo l -> asc lo' l.
Proof. destruct l; cbn [asc]; [auto|]. intros lo lo' H [A B]. split; [lia|exact B]. Qed.
Lemma asc_in l : forall lo x, asc lo l -> In x l -> lo < x.
Proof. induction l as [|y l IH]; intros lo x H I; [destruct I|]. cbn [asc] in H. destruct H as [A B], I as [->|I]; [exact A|]. specialize (IH y x B I). lia. Qed.
Lemma asc_app l : forall l' lo, asc lo (l ++ l') <-> asc lo l /\ asc (last l lo) l' .
Proof.
  induction l as [|x l IH]; intros l' lo; cbn [app asc]; [cbn [last]; tauto|]. rewrite IH. destruct l as [|y l]; [cbn [last asc]; tauto|].
  change (last (x :: y :: l) lo) with (last (y :: l) lo). assert (E : forall d d', last (y :: l) d = last (y :: l) d').
  { clear. revert y. induction l as [|z l IH]; intros y d d'; [reflexivity|]. change (last (y :: z :: l) d) with (last (z :: l) d). change (last (y :: z :: l) d') with (last (z :: l) d'). apply IH. }
  rewrite (E x lo). tauto.
Qed.
Lemma range_asc n : forall a lo, lo < a -> asc lo (map (fun i => a + Z.of_nat i) (seq 0 n)).
Proof.
  induction n as [|n IH]; intros a lo H; [exact I|]. cbn [seq map asc]. split; [lia|]. rewrite <- seq_shift, map_map. rewrite (map_ext _ (fun i => (a + 1) + Z.of_nat i)) by (intros; lia). apply IH. lia.
Qed.
Lemma filter_asc f l : forall lo, asc lo l -> asc lo (filter f l).
Proof. induction l as [|x l IH]; intros lo H; [exact I|]. cbn [asc filter] in *. destruct H as [A B]. destruct (f x); [split; [exact A|apply IH; exact B]|]. apply asc_weaken with x; [lia|]. apply IH. exact B. Qed.
Lemma heights_asc pts : asc (lower cz pts - 1) (heights pts).
Proof. unfold heights, range_incl. apply range_asc. lia. Qed.
Lemma floors_asc P pts : asc (lower cz pts - 1) (floors P pts).
Proof. apply filter_asc, heights_asc. Qed.
Lemma rev_desc l : forall lo x t, asc lo l -> rev l = x :: t -> desc x t.
Proof.
  induction l as [|y l IH] using rev_ind; intros lo x t H E; [discriminate|]. rewrite rev_app_distr in E. cbn [rev app] in E. injection E as -> <-.
  apply asc_app in H. destruct H as [A B]. cbn [asc] in B. destruct B as [B _].
  assert (G : forall x, (forall z, In z l -> z < x) -> desc x (rev l)).
  { intros x0 H0. destruct (rev l) as [|z t] eqn:R; [exact I|]. cbn [desc]. split; [apply H0; apply in_rev; rewrite R; left; reflexivity|]. exact (IH lo z t A eq_refl). }
  apply G. intros z Iz. clear - A B Iz. revert lo A B. induction l as [|y l IH]; intros lo A B; [destruct Iz|]. cbn [asc] in A. destruct A as [A1 A2].
  assert (B' : last l y < x). { destruct l as [|y' l]; [cbn [last] in *; exact B|]. change (last (y :: y' :: l) lo) with (last (y' :: l) lo) in B.
    assert (E : forall d d', last (y' :: l) d = last (y' :: l) d'). { clear. revert y'. induction l as [|z l IH]; intros y d d'; [reflexivity|]. change (last (y :: z :: l) d) with (last (z :: l) d). change (last (y :: z :: l) d') with (last (z :: l) d'). apply IH. } rewrite (E y lo). exact B. }
  destruct Iz as [->|Iz]; [|exact (IH Iz y A2 B')]. clear - A2 B'. revert z A2 B'. induction l as [|w l IH]; intros z A2 B'; [exact B'|]. cbn [asc] in A2. destruct A2 as [A1 A2]. 
  assert (last l w < x). { destruct l as [|y' l]; [exact B'|]. change (last (w :: y' :: l) z) with (last (y' :: l) z) in B'.
    assert (E : forall d d', last (y' :: l) d = last (y' :: l) d'). { clear. revert y'. induction l as [|z l IH]; intros y d d'; [reflexivity|]. change (last (y :: z :: l) d) with (last (z :: l) d). change (last (y :: z :: l) d') with (last (z :: l) d'). apply IH. } rewrite (E w z). exact B'. }
  specialize (IH w A2 H). lia.
Qed.

Lemma merged_run P pts maps : candidates P pts = Ok maps -> exists l A, merge_floors P pts maps = (l, A) /\ map fst l = floors P pts /\
  Forall (fun m : Z * grid_data => forall a, merged_cell (floors P pts) (D_of P pts) (fst m) a (snd m a)) l /\
  ((forall h, lower cz pts <= h <= upper cz pts -> height_of P h = h) -> 0 < width pts -> Forall (fun m : Z * grid_data => A (fst m) = count_free (size pts) (snd m)) l).
Proof.
  intros E. destruct (candidates_run P pts) as [maps' (E' & M & F)]. rewrite E in E'. injection E' as <-. fold (floors P pts) in M.
  unfold merge_floors. destruct (rev maps) as [|top rest] eqn:R.
  - exists [], (runnable P pts). assert (maps = []) by (rewrite <- (rev_involutive maps), R; reflexivity). subst maps. cbn [map] in M. rewrite <- M. split; [reflexivity|]. split; [reflexivity|]. split; constructor.
  - destruct (merge P (size pts) top rest (runnable P pts)) as [l A] eqn:Em. exists (rev l), A. split; [reflexivity|].
    assert (Rf : rev (floors P pts) = fst top :: map fst rest) by (rewrite <- M, <- map_rev, R; reflexivity).
    pose proof (rev_desc _ _ _ _ (floors_asc P pts) Rf) as Hd.
    assert (Fr : Forall (fun m : Z * grid_data => draw P pts (fst m) = Ok (snd m)) (top :: rest)) by (rewrite <- R; apply Forall_rev; exact F).
    assert (Fr' : Forall (fun m : Z * grid_data => snd m = D_of P pts (fst m)) (top :: rest)).
    { rewrite Forall_forall in *. intros m I. specialize (Fr m I). rewrite draw_D in Fr. injection Fr as ->. reflexivity. }
    inversion Fr' as [|? ? F1 F2]; subst.
    assert (FE : forall a, freed ([] ++ [fst top]) (D_of P pts) (fst top) a <-> D_of P pts (fst top) a = 0).
    { intros a. split.
      - intros [j [[L Q] Z0]]. specialize (Q j ltac:(lia)). destruct Q as [<-|[]]. exact Z0.
      - intros Z0. exists (fst top). split; [split; [lia|]|exact Z0]. intros x Hx. left. lia. }
    destruct (merge_spec P (size pts) (D_of P pts) rest [] top (runnable P pts) l A) as [Ml Fl].
    + exact Hd.
    + intros x [].
    + exact F2.
    + intros a. rewrite FE, F1. split; auto.
    + intros a. rewrite FE. destruct (Z.eq_dec (D_of P pts (fst top) a) 0); [left|right]; assumption.
    + exact Em.
    + split; [rewrite map_rev, Ml, <- Rf, rev_involutive; reflexivity|]. split.
      * apply Forall_rev. rewrite Forall_forall in *. intros m I a. specialize (Fl m I a). cbn [app] in Fl. rewrite <- Rf in Fl.
        assert (Eq : forall x, In x (rev (floors P pts)) <-> In x (floors P pts)) by (intros; symmetry; apply in_rev).
        unfold merged_cell, freed, run_of in *. destruct Fl as [X Y]. split.
        -- intros [j [[L Q] Z0]]. rewrite X.
           ++ replace (existsb (Z.eqb (fst m - 1)) (rev (floors P pts))) with (existsb (Z.eqb (fst m - 1)) (floors P pts)); [reflexivity|].
              apply eq_true_iff_eq. rewrite !existsb_exists. split; intros [x [Ix Ex]]; exists x; split; try exact Ex; apply Eq; exact Ix || (apply Eq in Ix; exact Ix).
           ++ exists j. split; [split; [exact L|]|exact Z0]. intros x Hx. apply Eq, Q, Hx.
        -- intros N. apply Y. intros [j [[L Q] Z0]]. apply N. exists j. split; [split; [exact L|]|exact Z0]. intros x Hx. apply Eq, Q, Hx.
      * intros Hh W. apply Forall_rev.
        assert (Hin : forall x, In x (fst top :: map fst rest) -> lower cz pts <= x <= upper cz pts /\ enough P pts x = true).
        { intros x I. rewrite <- Rf in I. apply in_rev in I. apply filter_In in I. destruct I as [I1 I2]. unfold heights in I1. apply in_range_incl in I1. split; [exact I1|]. unfold is_floor in I2. destruct (enough P pts x); [reflexivity|discriminate]. }
        assert (Hc : forall m, In m (top :: rest) -> runnable P pts (fst m) = count_free (size pts) (snd m)).
        { intros m I. rewrite Forall_forall in Fr. specialize (Fr m I). rewrite (count_free_draw P pts _ _ W Fr). unfold runnable. rewrite (proj2 (Hin (fst m) (List.in_map fst _ _ I))). reflexivity. }
        apply (merge_areas P (size pts) (fun h => lower cz pts <= h <= upper cz pts) Hh rest top (runnable P pts) l A).
        -- apply Hin. left. reflexivity.
        -- apply Forall_forall. intros x I. apply Hin. right. exact I.
        -- exact Hd.
        -- exact Em.
        -- apply Hc. left. reflexivity.
        -- apply Forall_forall. intros m I. apply Hc. right. exact I.
Qed.

Lemma size_pos pts : pts <> [] -> 0 < width pts /\ 0 < height pts.
Proof. destruct pts as [|p pts]; [congruence|]. intros _. pose proof (bounds_in cx (p :: pts) p (or_introl eq_refl)). pose proof (bounds_in cy (p :: pts) p (or_introl eq_refl)). unfold width, height. lia. Qed.

Lemma publish_run P pts A : 0 < width pts -> 0 < height pts -> size pts < 2 ^ 31 -> forall l acc,
  exists r, foldM (publish P pts A) l acc = Ok (acc ++ r) /\
    map fst r = map fst (filter (fun m => negb (too_small P (A (height_of P (fst m))))) l) /\
    Forall (fun m => exists cp, In (fst m, cp) l /\ widen (width pts) (height pts) cp = Ok (snd m)) r.
Proof.
  intros W H S. induction l as [|m l IH]; intros acc.
  - exists []. rewrite app_nil_r. split; [reflexivity|]. split; [reflexivity|constructor].
  - cbn [foldM filter]. change (publish P pts A acc m) with (if too_small P (A (height_of P (fst m))) then Ok acc else do d <- widen (width pts) (height pts) (snd m); Ok (acc ++ [(fst m, d)])). destruct (too_small P (A (height_of P (fst m)))) eqn:T; cbn [negb].
    + cbn [bind]. destruct (IH acc) as [r (E & M & F)]. exists r. split; [exact E|]. split; [exact M|]. eapply Forall_impl; [|exact F]. intros m' [cp [I Ew]]. exists cp. split; [right; exact I|exact Ew].
    + destruct (widen_run (width pts) (height pts) W H S (snd m)) as [d [Ed _]]. rewrite Ed. cbn [bind].
      destruct (IH (acc ++ [(fst m, d)])) as [r (E & M & F)]. exists ((fst m, d) :: r). split; [rewrite E, <- app_assoc; reflexivity|]. split; [cbn [map fst]; rewrite M; reflexivity|].
      constructor.
      * exists (snd m). cbn [fst snd]. split; [left; destruct m; reflexivity|exact Ed].
      * eapply Forall_impl; [|exact F]. intros m' [cp [I Ew]]. exists cp. split; [right; exact I|exact Ew].
Qed.

(** *** Cells by key *)
Lemma address_coord pts k : inside pts k -> address pts k mod width pts = fst k - lower cx pts /\ address pts k / width pts = snd k - lower cy pts.
Proof.
  intros [H1 H2]. unfold address. assert (0 <= fst k - lower cx pts < width pts) by (unfold width; lia). split.
  - symmetry. apply Z.mod_unique_pos with (snd k - lower cy pts); lia.
  - symmetry. apply Z.div_unique_pos with (fst k - lower cx pts); lia.
Qed.
Definition apart2 (k k' : key) : Z := (fst k - fst k') * (fst k - fst k') + (snd k - snd k') * (snd k - snd k').
Lemma dist2_apart pts k k' : inside pts k -> inside pts k' -> dist2 (width pts) (address pts k) (address pts k') = apart2 k k'.
Proof. intros H H'. destruct (address_coord pts k H) as [A B], (address_coord pts k' H') as [A' B']. unfold dist2, apart2. rewrite A, B, A', B'. nia. Qed.
