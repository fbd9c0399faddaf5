(** Properties C46 (saved maps reload) and C47 (floor selection). *)
From Coq Require Import ZifyBool ZifyNat String Ascii DecimalString DecimalNat.
From Verif Require Import Common MapOrganizer.
Local Open Scope Z_scope.

(** *** Specification for C46.  The ROS map format, as read by map_server's image
    loader in trinary mode with [negate = 0]: image row 0 is the top of the map. *)
Definition reload_value (px : Z) : Z :=
  if occupied_thresh * 255 <? (255 - px) * 1000 then 100
  else if (255 - px) * 1000 <? free_thresh * 255 then 0 else -1.
(** Cell (x, y) of the map that the image describes; rows are stored top first. *)
Definition reload_cell (h : Z) (image : list (list Z)) (x y : Z) : option Z :=
  match nth_error image (Z.to_nat (h - y - 1)) with
  | Some row => option_map reload_value (nth_error row (Z.to_nat x))
  | None => None
  end.
(** Cell (x, y) of an occupancy grid message. *)
Definition cell (m : ogrid) (x y : Z) : option Z := nth_error (og_data m) (Z.to_nat (x + y * og_w m)).
(** free / occupied / unknown. *)
Definition classify (v : Z) : Z := if v =? 0 then 0 else if v =? 100 then 100 else -1.
Definition well_formed (m : ogrid) : Prop :=
  0 <= og_w m /\ 0 <= og_h m /\ og_w m * og_h m < 2 ^ 32 /\ og_w m < 2 ^ 32 /\ og_h m < 2 ^ 32 /\
  Z.of_nat (List.length (og_data m)) = og_w m * og_h m.

Lemma range_excl_S n : (forall k, range_excl 0 (Z.of_nat (S k)) = range_excl 0 (Z.of_nat k) ++ [Z.of_nat k]) /\
  range_excl 0 (Z.of_nat n) = map Z.of_nat (seq 0 n).
Proof.
  assert (G : forall n, range_excl 0 (Z.of_nat n) = map Z.of_nat (seq 0 n)).
  { intros m. unfold range_excl, range_incl. replace (Z.to_nat (Z.of_nat m - 1 - 0 + 1)) with m by lia.
    apply map_ext. intros. lia. }
  split; [|apply G]. intros k. rewrite !G, seq_S, map_app. reflexivity.
Qed.

Lemma foldM_ext {A S} (f g : S -> A -> outcome S) l s : (forall s a, f s a = g s a) -> foldM f l s = foldM g l s.
Proof. intros H. revert s. induction l as [|a l IH]; intros s; cbn [foldM]; [reflexivity|]. rewrite H. destruct (g s a); cbn [bind]; auto. Qed.

(** A loop that appends one result per counter value. *)
Lemma collect {B} (f : Z -> outcome B) (g : nat -> B) n :
  (forall k, (k < n)%nat -> f (Z.of_nat k) = Ok (g k)) ->
  foldM (fun acc y => do r <- f y; Ok (acc ++ [r])) (range_excl 0 (Z.of_nat n)) [] = Ok (map g (seq 0 n)).
Proof.
  intros H. rewrite (proj2 (range_excl_S n)).
  assert (G : forall m, (m <= n)%nat ->
    foldM (fun acc y => do r <- f y; Ok (acc ++ [r])) (map Z.of_nat (seq 0 m)) [] = Ok (map g (seq 0 m))).
  { induction m as [|m IH]; intros Hm; [reflexivity|]. rewrite seq_S, !map_app, foldM_app, IH by lia.
    cbn [bind map foldM Nat.add]. rewrite H by lia. reflexivity. }
  apply G. lia.
Qed.

Lemma nth_error_map_seq {B} (g : nat -> B) n k : (k < n)%nat -> nth_error (map g (seq 0 n)) k = Some (g k).
Proof.
  intros H. rewrite nth_error_map. 
  assert (E : nth_error (seq 0 n) k = Some k).
  { rewrite (nth_error_nth' _ 0%nat) by (rewrite seq_length; lia). rewrite seq_nth by lia. reflexivity. }
  rewrite E. reflexivity.
Qed.

Lemma pixel_roundtrip v : reload_value (pixel v) = classify v.
Proof. unfold pixel, classify. destruct (v =? 0); [reflexivity|]. destruct (v =? 100); reflexivity. Qed.

(** C46: for every map, saving reads no cell outside the data, and reloading gives the
    free/occupied/unknown class of every cell in its own place. *)
Theorem C46_saved_map_reloads m : well_formed m ->
  exists image, save_map m = Ok image /\
    Z.of_nat (List.length image) = og_h m /\
    (forall row, In row image -> Z.of_nat (List.length row) = og_w m) /\
    forall x y, 0 <= x < og_w m -> 0 <= y < og_h m ->
      exists v, cell m x y = Some v /\ reload_cell (og_h m) image x y = Some (classify v).
Proof.
  intros (Hw & Hh & Hs & Hw32 & Hh32 & Hl).
  destruct (Z_of_nat_complete _ Hw) as [w Ew], (Z_of_nat_complete _ Hh) as [h Eh].
  set (at_ := fun y x => pixel (nth (x + (h - y - 1) * w) (og_data m) 0)).
  set (row := fun y => map (at_ y) (seq 0 w)).
  assert (Hrow : forall y, (y < h)%nat -> save_row m (Z.of_nat y) = Ok (row y)).
  { intros y Hy. unfold save_row. rewrite Ew.
    pose proof (collect (fun x => match nth_error (og_data m)
        (Z.to_nat (u32 (x + u32 (u32 (og_h m - Z.of_nat y - 1) * Z.of_nat w)))) with
        | Some v => Ok (pixel v) | None => UB end) (at_ y) w) as C.
    unfold row. rewrite <- C.
    - apply foldM_ext. intros acc x. destruct (nth_error _ _); reflexivity.
    - intros x Hx. rewrite Eh. unfold u32.
      assert (0 <= Z.of_nat h - Z.of_nat y - 1 < Z.of_nat h) by lia.
      rewrite (Z.mod_small (Z.of_nat h - Z.of_nat y - 1)) by lia.
      rewrite (Z.mod_small ((Z.of_nat h - Z.of_nat y - 1) * Z.of_nat w)) by nia.
      rewrite Z.mod_small by nia.
      replace (Z.to_nat (Z.of_nat x + (Z.of_nat h - Z.of_nat y - 1) * Z.of_nat w))
        with (x + (h - y - 1) * w)%nat by nia.
      rewrite (nth_error_nth' _ 0) by nia. reflexivity. }
  exists (map row (seq 0 h)). split.
  { unfold save_map. rewrite Eh. apply collect. exact Hrow. }
  split; [rewrite map_length, seq_length; lia|]. split.
  { intros r Hr. apply in_map_iff in Hr as (y & <- & _). unfold row. rewrite map_length, seq_length. lia. }
  intros x y Hx Hy. set (kx := Z.to_nat x). set (ky := Z.to_nat y).
  exists (nth (kx + ky * w) (og_data m) 0). split.
  - unfold cell. rewrite Ew. replace (Z.to_nat (x + y * Z.of_nat w)) with (kx + ky * w)%nat by nia.
    apply nth_error_nth'. nia.
  - unfold reload_cell. rewrite Eh. replace (Z.to_nat (Z.of_nat h - y - 1)) with (h - ky - 1)%nat by lia.
    rewrite nth_error_map_seq by lia. unfold row. fold kx. rewrite nth_error_map_seq by lia.
    cbn [option_map]. unfold at_. rewrite pixel_roundtrip.
    replace (kx + (h - (h - ky - 1) - 1) * w)%nat with (kx + ky * w)%nat by nia. reflexivity.
Qed.

(** A map made only of free, occupied and unknown cells is reproduced exactly. *)
Corollary C46_trinary_map_is_identical m image x y v : well_formed m -> save_map m = Ok image ->
  0 <= x < og_w m -> 0 <= y < og_h m -> cell m x y = Some v -> (v = 0 \/ v = 100 \/ v = -1) ->
  reload_cell (og_h m) image x y = Some v.
Proof.
  intros Hm Hs Hx Hy Hc Hv. destruct (C46_saved_map_reloads m Hm) as (im & Hi & _ & _ & H).
  rewrite Hs in Hi. injection Hi as <-. destruct (H x y Hx Hy) as (v' & Hv' & ->).
  rewrite Hc in Hv'. injection Hv' as <-. destruct Hv as [->|[->| ->]]; reflexivity.
Qed.

Example C46_example :
  well_formed (mkOG 3 2 [0; 100; -1;  50; 0; 100]) /\
  save_map (mkOG 3 2 [0; 100; -1;  50; 0; 100]) = Ok [[205; 254; 0]; [254; 0; 205]] /\
  map (fun x => reload_cell 2 [[205; 254; 0]; [254; 0; 205]] x 0) [0; 1; 2] = [Some 0; Some 100; Some (-1)].
Proof. unfold well_formed; cbn [og_w og_h og_data]; cbn [List.length]. repeat split; lia || reflexivity. Qed.

(** Finding: with a map name that contains a directory, the yaml file written names an
    image that the loader looks up relative to the yaml file's own directory, i.e. in a
    place where nothing was written. *)
Theorem C46_named_image_is_the_written_one_refuted :
  loaded_image_file (yaml_file "maps/office" "0") (yaml_image_entry "maps/office" "0")
    <> image_file "maps/office" "0".
Proof. discriminate. Qed.
(** With a plain name or an absolute one the right file is opened. *)
Theorem C46_named_image_absolute mapname floor :
  loaded_image_file (yaml_file (String "/" mapname) floor) (yaml_image_entry (String "/" mapname) floor)
    = image_file (String "/" mapname) floor.
Proof. reflexivity. Qed.

(** std::to_string of a floor number. *)
Definition floor_name (n : nat) : string := DecimalString.NilEmpty.string_of_uint (Nat.to_uint n).

(** C46: the files of all floors are pairwise different: no floor overwrites another
    one's files and no image overwrites a yaml file. *)
Lemma append_cancel_l a b c : (a ++ b)%string = (a ++ c)%string -> b = c.
Proof. induction a as [|ch a IH]; cbn; intros H; [exact H|injection H as H; auto]. Qed.
Lemma append_cancel_r a b c : (a ++ c)%string = (b ++ c)%string -> a = b.
Proof.
  intros H. assert (L : String.length a = String.length b).
  { apply (f_equal String.length) in H.
    assert (G : forall u v, String.length (u ++ v)%string = (String.length u + String.length v)%nat).
    { induction u as [|ch u IH]; intros v; cbn; [reflexivity|rewrite IH; reflexivity]. }
    rewrite !G in H. lia. }
  revert b H L. induction a as [|ch a IH]; intros [|ch' b] H L; cbn in *; try discriminate; [reflexivity|].
  injection H as -> H. f_equal. apply IH; [exact H|lia].
Qed.
Lemma append_assoc_s a b c : (a ++ b ++ c)%string = ((a ++ b) ++ c)%string.
Proof. induction a as [|ch a IH]; cbn; [reflexivity|rewrite IH; reflexivity]. Qed.
Theorem C46_files_do_not_collide mapname f g :
  image_file mapname (floor_name f) <> yaml_file mapname (floor_name g) /\
  (image_file mapname (floor_name f) = image_file mapname (floor_name g) -> f = g) /\
  (yaml_file mapname (floor_name f) = yaml_file mapname (floor_name g) -> f = g).
Proof.
  assert (INJ : forall ext, (mapname ++ floor_name f ++ ext)%string = (mapname ++ floor_name g ++ ext)%string -> f = g).
  { intros ext H. apply append_cancel_l, append_cancel_r in H. unfold floor_name in H.
    apply DecimalNat.Unsigned.to_uint_inj.
    apply (f_equal DecimalString.NilEmpty.uint_of_string) in H. rewrite !DecimalString.NilEmpty.usu in H. congruence. }
  split; [|split; apply INJ]. unfold image_file, yaml_file. intros H.
  rewrite (append_assoc_s mapname (floor_name f)), (append_assoc_s mapname (floor_name g)) in H.
  change ".pgm"%string with (".pg" ++ String "m" EmptyString)%string in H.
  change ".yaml"%string with (".yam" ++ String "l" EmptyString)%string in H.
  rewrite !append_assoc_s in H.
  assert (G : forall u v c d, (u ++ String c EmptyString)%string = (v ++ String d EmptyString)%string -> c = d).
  { clear. induction u as [|a u IH]; intros [|b v] c d E; cbn in E.
    - congruence.
    - injection E as _ E. destruct v; discriminate.
    - injection E as _ E. destruct u; discriminate.
    - injection E as _ E. exact (IH v c d E). }
  apply G in H. discriminate.
Qed.
Example C46_files_ex : image_file "office" (floor_name 12) = "office12.pgm"%string.
Proof. reflexivity. Qed.

(** *** Specification for C47. *)
Section SelectSpec.
  Context {Map : Type}.
  Notation ev := (@sev Map).
  Definition arrays_of (es : list ev) : list (list fmap) :=
    flat_map (fun e => match e with EvMaps l => [l] | _ => [] end) es.
  (** The map of floor [f] in an array, if there is one. *)
  Definition floor_of (l : list (@fmap Map)) (f : Z) : option fmap :=
    if f <? 0 then None else nth_error l (Z.to_nat f).
  (** What a client sees of a floor: its map at height 0, and its height as offset. *)
  Definition shown (m : @fmap Map) : fmap * Z := (mkFM (fm_map m) 0, fm_z m).
  (** The floor served when the requests were observed in the order [fs]: the last one
      that exists in [l]. *)
  Definition last_valid (l : list (@fmap Map)) (fs : list Z) : option fmap :=
    fold_left (fun acc f => match floor_of l f with Some m => Some m | None => acc end) fs None.
  (** The requests as the cycles observe them. *)
  Fixpoint observed (cur : Z) (es : list ev) : list Z :=
    match es with
    | [] => []
    | EvMaps _ :: es' => observed cur es'
    | EvFloor f :: es' => observed f es'
    | EvCycle :: es' => cur :: observed cur es'
    end.
End SelectSpec.

Section SelectProofs.
  Context {Map : Type}.
  Notation ev := (@sev Map).
  Implicit Types (s : @sst Map) (es : list ev).

  (** Height bookkeeping: [s_maps] are the flattened maps, [s_orig] their heights. *)
  Definition sinv (s : @sst Map) (arr : list (@fmap Map)) : Prop :=
    s_maps s = map (fun m => mkFM (fm_map m) 0) arr /\ s_orig s = map fm_z arr.

  Lemma srun_step es e s o : srun s0 es = Ok (s, o) ->
    srun s0 (es ++ [e]) = (do r <- sstep s e; Ok (fst r, o ++ snd r)).
  Proof.
    unfold srun. intros H. rewrite foldM_app, H. cbn [bind foldM fst snd].
    destruct (sstep s e) as [[s' o']|]; reflexivity.
  Qed.

  Definition last_array (es : list ev) : list fmap := last (arrays_of es) [].
  Lemma last_array_app es e : last_array (es ++ [e]) =
    match e with EvMaps l => l | _ => last_array es end.
  Proof.
    unfold last_array, arrays_of. rewrite flat_map_app. destruct e; cbn [flat_map]; rewrite ?app_nil_r; auto.
    rewrite last_last. reflexivity.
  Qed.
  Definition last_request (es : list ev) : Z :=
    fold_left (fun c e => match e with EvFloor f => f | _ => c end) es 0.

  (** Latched map and offset always belong together, and to some array received. *)
  Definition pair_ok (arrs : list (list (@fmap Map))) (s : @sst Map) : Prop :=
    match s_latched s with
    | Some m => exists arr m0, In arr arrs /\ In m0 arr /\ (m, s_off s) = shown m0
    | None => s_off s = 0
    end.

  Lemma floor_of_maps arr f : floor_of (map (fun m => mkFM (fm_map m) 0) arr) f =
    option_map (fun m : fmap => mkFM (fm_map m) 0) (@floor_of Map arr f).
  Proof. unfold floor_of. destruct (f <? 0); [reflexivity|]. apply nth_error_map. Qed.

  Lemma cycle_spec s arr : sinv s arr -> arr <> [] ->
    sstep s EvCycle =
    Ok (if s_cur s =? s_prev s then (s, [Broadcast (s_off s)])
        else match floor_of arr (s_cur s) with
             | Some m => (mkS (s_maps s) (s_orig s) (s_cur s) (s_cur s) (Some (fst (shown m))) (snd (shown m)),
                          [Publish (fst (shown m)); Broadcast (snd (shown m))])
             | None => (mkS (s_maps s) (s_orig s) (s_cur s) (s_cur s) (s_latched s) (s_off s),
                        [Broadcast (s_off s)])
             end).
  Proof.
    intros [E1 E2] Hn. unfold sstep. destruct (s_maps s) as [|x l] eqn:E; [destruct arr; [congruence|discriminate]|].
    rewrite <- E in *. clear x l E. destruct (s_cur s =? s_prev s) eqn:Ec; cbn [negb]; [reflexivity|].
    rewrite E1, E2, map_length, !nth_error_map. unfold floor_of.
    destruct (s_cur s <? 0) eqn:Eb.
    - replace (0 <=? s_cur s) with false by lia. reflexivity.
    - replace (0 <=? s_cur s) with true by lia. cbn [andb].
      destruct (nth_error arr (Z.to_nat (s_cur s))) as [m|] eqn:En.
      + assert (nth_error arr (Z.to_nat (s_cur s)) <> None) as Hlt by congruence. apply nth_error_Some in Hlt.
        replace (s_cur s <? Z.of_nat (List.length arr)) with true by lia. reflexivity.
      + apply nth_error_None in En.
        replace (s_cur s <? Z.of_nat (List.length arr)) with false by lia. reflexivity.
  Qed.
  Lemma cycle_empty s : sinv s [] -> sstep s EvCycle = Ok (s, []).
  Proof. intros [E1 _]. unfold sstep. rewrite E1. reflexivity. Qed.

  (** Invariant of every history. *)
  Lemma run_inv es : exists s o, srun s0 es = Ok (s, o) /\ sinv s (last_array es) /\
    s_cur s = last_request es /\ pair_ok (arrays_of es) s.
  Proof.
    induction es as [|e es IH] using rev_ind.
    - exists s0, []. repeat split.
    - destruct IH as (s & o & Hr & Hi & Hc & Hp). rewrite (srun_step _ _ _ _ Hr), last_array_app.
      assert (Hreq : last_request (es ++ [e]) = match e with EvFloor f => f | _ => last_request es end)
        by (unfold last_request; rewrite fold_left_app; reflexivity).
      assert (Hp' : pair_ok (arrays_of (es ++ [e])) s).
      { unfold pair_ok in *. destruct (s_latched s) as [m|]; [|assumption].
        destruct Hp as (arr & m0 & H1 & H2). exists arr, m0. split; [|assumption].
        unfold arrays_of. rewrite flat_map_app. apply in_or_app. left. exact H1. }
      rewrite Hreq. destruct e as [l|f|].
      + cbn [sstep bind fst snd]. do 2 eexists. repeat split; assumption.
      + cbn [sstep bind fst snd]. do 2 eexists. repeat split; try assumption; apply Hi.
      + destruct (last_array es) as [|m0 arr] eqn:El.
        * rewrite cycle_empty by assumption. cbn [bind fst snd]. do 2 eexists. repeat split; try assumption; apply Hi.
        * rewrite (cycle_spec s (m0 :: arr)) by (assumption || discriminate).
          destruct (s_cur s =? s_prev s); cbn [bind fst snd]; [do 2 eexists; repeat split; try assumption; apply Hi|].
          destruct (floor_of (m0 :: arr) (s_cur s)) as [m|] eqn:Ef; cbn [bind fst snd];
            do 2 eexists; (repeat split; try assumption; try apply Hi).
          cbn [pair_ok s_latched s_off]. exists (m0 :: arr), m. split.
          -- unfold last_array in El. unfold arrays_of. rewrite flat_map_app. apply in_or_app. left.
             fold (arrays_of es). destruct (arrays_of es) as [|a l] using rev_ind; [discriminate|].
             rewrite last_last in El. subst. apply in_or_app. simpl. auto.
          -- split; [|reflexivity]. unfold floor_of in Ef. destruct (s_cur s <? 0); [discriminate|].
             eapply nth_error_In; eassumption.
  Qed.

  (** C47a: for every history the node never reads outside its arrays, and the map on
      the latched topic and the broadcast offset are always those of one and the same
      floor of a received array (height zeroed / original height). *)
  Theorem C47_map_and_offset_belong_together es :
    exists s o, srun s0 es = Ok (s, o) /\
      match s_latched s with
      | Some m => exists arr m0, In (EvMaps arr) es /\ In m0 arr /\ m = fst (shown m0) /\ s_off s = snd (shown m0)
      | None => s_off s = 0
      end.
  Proof.
    destruct (run_inv es) as (s & o & Hr & _ & _ & Hp). exists s, o. split; [assumption|].
    unfold pair_ok in Hp. destruct (s_latched s) as [m|]; [|assumption].
    destruct Hp as (arr & m0 & H1 & H2 & H3). exists arr, m0. injection H3 as -> ->.
    repeat split; auto. unfold arrays_of in H1. apply in_flat_map in H1 as (e & He & Hin).
    destruct e; [destruct Hin as [<-|[]]; assumption|destruct Hin|destruct Hin].
  Qed.

  (** C47b: as long as the map array stays the one received first, after any requests
      and cycles the published map is that of the last requested floor that exists. *)
  Definition no_array (es : list ev) : Prop := forall l, ~ In (EvMaps l) es.

  Lemma observed_app es e : no_array (es ++ [e]) -> forall c, observed c (es ++ [e]) =
    observed c es ++ match e with EvCycle => [fold_left (fun c e => match e with EvFloor f => f | _ => c end) es c] | _ => [] end.
  Proof.
    induction es as [|a es IH]; intros Hn c.
    - destruct e; reflexivity.
    - assert (no_array (es ++ [e])) as Hn' by (intros l Hl; apply (Hn l); right; exact Hl).
      destruct a; cbn [app observed fold_left]; rewrite ?IH by assumption; reflexivity.
  Qed.

  Theorem C47_last_valid_request_is_shown before arr es : no_array before -> no_array es -> arr <> [] ->
    exists s o, srun s0 (before ++ EvMaps arr :: es) = Ok (s, o) /\
      option_map shown (last_valid arr (observed (last_request before) es))
      = option_map (fun m => (m, s_off s)) (s_latched s).
  Proof.
    intros Hb He Ha.
    assert (G : exists s o, srun s0 (before ++ EvMaps arr :: es) = Ok (s, o) /\ sinv s arr /\
      s_cur s = fold_left (fun c e => match e with EvFloor f => f | _ => c end) es (last_request before) /\
      option_map shown (last_valid arr (observed (last_request before) es))
        = option_map (fun m => (m, s_off s)) (s_latched s) /\
      (s_prev s = -1 \/ forall m, floor_of arr (s_prev s) = Some m ->
                          option_map (fun m => (m, s_off s)) (s_latched s) = Some (shown m))).
    2:{ destruct G as (s & o & H1 & _ & _ & H2 & _). eauto. }
    induction es as [|e es IH] using rev_ind.
    - (* before the array: nothing published, no request examined *)
      assert (B : exists s o, srun s0 before = Ok (s, o) /\ s_maps s = [] /\ s_cur s = last_request before /\
                  s_latched s = None /\ s_prev s = -1).
      { clear - Hb. induction before as [|e es IH] using rev_ind; [exists s0, []; repeat split|].
        destruct IH as (s & o & Hr & H1 & H2 & H3 & H4); [intros l Hl; apply (Hb l), in_or_app; auto|].
        rewrite (srun_step _ _ _ _ Hr). unfold last_request. rewrite fold_left_app. fold (last_request es).
        destruct e as [l|f|]; [exfalso; apply (Hb l), in_or_app; simpl; auto| |].
        - cbn [sstep bind fst snd]. do 2 eexists; repeat split; assumption.
        - unfold sstep. rewrite H1. cbn [bind fst snd]. do 2 eexists; repeat split; assumption. }
      destruct B as (s & o & Hr & H1 & H2 & H3 & H4). rewrite (srun_step _ _ _ _ Hr).
      cbn [sstep bind fst snd]. do 2 eexists. split; [reflexivity|]. cbn [s_maps s_orig s_cur s_prev s_latched s_off].
      repeat split; try assumption; [rewrite H3; reflexivity|left; assumption].
    - assert (no_array es) as He' by (intros l Hl; apply (He l), in_or_app; auto).
      destruct (IH He') as (s & o & Hr & Hi & Hc & Hl & Hp).
      rewrite observed_app by assumption.
      replace (before ++ EvMaps arr :: es ++ [e]) with ((before ++ EvMaps arr :: es) ++ [e])
        by (rewrite <- app_assoc; reflexivity).
      rewrite (srun_step _ _ _ _ Hr). rewrite fold_left_app. cbn [fold_left].
      destruct e as [l|f|]; [exfalso; apply (He l), in_or_app; simpl; auto| |].
      + cbn [sstep bind fst snd]. do 2 eexists. split; [reflexivity|]. rewrite app_nil_r.
        cbn [s_maps s_orig s_cur s_prev s_latched s_off]. repeat split; try assumption; apply Hi.
      + rewrite (cycle_spec s arr) by assumption. unfold last_valid. rewrite fold_left_app.
        fold (last_valid arr (observed (last_request before) es)). cbn [fold_left]. rewrite <- Hc.
        destruct (s_cur s =? s_prev s) eqn:Ec; cbn [bind fst snd].
        * do 2 eexists. split; [reflexivity|]. split; [assumption|]. split; [reflexivity|]. split; [|assumption].
          destruct (floor_of arr (s_cur s)) as [m|] eqn:Ef; [|assumption].
          apply Z.eqb_eq in Ec. destruct Hp as [Hp|Hp].
          -- rewrite Ec, Hp in Ef. discriminate.
          -- rewrite (Hp m) by congruence. reflexivity.
        * destruct (floor_of arr (s_cur s)) as [m|] eqn:Ef; cbn [bind fst snd];
            do 2 eexists; (split; [reflexivity|]); cbn [s_maps s_orig s_cur s_prev s_latched s_off];
            (split; [assumption|]); (split; [reflexivity|]).
          -- split; [reflexivity|]. right. intros m' Hm'. rewrite Ef in Hm'. injection Hm' as <-. reflexivity.
          -- split; [assumption|]. right. intros m' Hm'. congruence.
  Qed.

  (** The full claim is false: a new map array arriving while the requested floor stays
      the same is never published, so clients keep the old map. *)
  Theorem C47_new_array_is_shown_refuted (a b : Map) (n : nat) :
    exists s o, srun s0 ([EvMaps [mkFM a 0]; EvFloor 0; EvCycle; EvMaps [mkFM b 0]] ++ repeat EvCycle n)
                = Ok (s, o) /\ s_latched s = Some (mkFM a 0).
  Proof.
    assert (G : exists s o, srun s0 ([EvMaps [mkFM a 0]; EvFloor 0; EvCycle; EvMaps [mkFM b 0]] ++ repeat EvCycle n)
                = Ok (s, o) /\ s_latched s = Some (mkFM a 0) /\ s_cur s = 0 /\ s_prev s = 0 /\ s_maps s = [mkFM b 0]).
    { induction n as [|n IH].
      - exists (mkS [mkFM b 0] [0] 0 0 (Some (mkFM a 0)) 0), [Publish (mkFM a 0); Broadcast 0].
        vm_compute. repeat split.
      - destruct IH as (s & o & Hr & H1 & H2 & H3 & H4). cbn [repeat]. rewrite repeat_cons, app_assoc.
        rewrite (srun_step _ _ _ _ Hr). unfold sstep. rewrite H4, H2, H3.
        exists s, (o ++ [Broadcast (s_off s)]). repeat split; assumption. }
    destruct G as (s & o & H1 & H2 & _). eauto.
  Qed.
End SelectProofs.

Example C47_example : exists s, srun (@s0 nat)
    ([EvFloor 1] ++ EvMaps [mkFM 10%nat 0; mkFM 11%nat 3] :: [EvCycle; EvFloor 5; EvCycle; EvFloor 0; EvCycle])
    = Ok (s, [Publish (mkFM 11%nat 0); Broadcast 3; Broadcast 3; Publish (mkFM 10%nat 0); Broadcast 0]).
Proof. eexists. vm_compute. reflexivity. Qed.

Print Assumptions C46_files_do_not_collide.
Print Assumptions C46_saved_map_reloads.
Print Assumptions C46_trinary_map_is_identical.
Print Assumptions C46_named_image_is_the_written_one_refuted.
Print Assumptions C46_named_image_absolute.
Print Assumptions C47_map_and_offset_belong_together.
Print Assumptions C47_last_valid_request_is_shown.
Print Assumptions C47_new_array_is_shown_refuted.
