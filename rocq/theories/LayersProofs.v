(** Proofs about the layer stack; theorems are in LayersProps.v. *)
From Verif Require Import Common CSpace CSpaceProps Inflate InflateProofs InflateProps Layers.
Local Open Scope Z_scope.

(** ** Regions that span all headings *)
Definition tall (a : Z) (r : region) : Prop :=
  sized r /\ 0 <= rz r /\ (rw r = 0 \/ rh r = 0 \/ (rz r = 0 /\ ra r = a)).

Lemma tall_empty a : tall a empty_region.
Proof. split; [unfold sized; cbn; lia|]. cbn. lia. Qed.
Lemma tall_merge a t r : tall a t -> tall a r -> tall a (merge t r).
Proof.
  intros [St [Zt Ht]] [Sr [Zr Hr]]. destruct (C21_merge_is_the_bounding_box t r St Sr) as (S & _). split; [assumption|].
  destruct (zero_size r) eqn:Er. { unfold merge. rewrite Er. auto. }
  destruct (zero_size t) eqn:Et. { unfold merge. rewrite Er, Et. auto. }
  destruct (merge_bounds t r Et Er) as (_ & _ & E3 & _ & _ & E6 & _).
  apply zero_size_false in Et; [|assumption]. apply zero_size_false in Er; [|assumption]. lia.
Qed.
Lemma tall_normalize a r fw fh : 0 <= fw -> 0 <= fh -> tall a r -> tall a (normalize r fw fh).
Proof.
  intros Hw Hh [S H]. destruct (C21_normalize_is_the_part_inside r fw fh Hw Hh) as [S' _]. split; [auto|].
  destruct (normalize_spec r fw fh Hw Hh) as (A1 & A2 & A3 & A4 & A5 & A6 & B1 & B2 & _ & C1 & C2).
  specialize (C1 (rx (normalize r fw fh))). specialize (C2 (ry (normalize r fw fh))). rewrite B1, B2. lia.
Qed.
Lemma tall_zero a r : 0 < a -> tall a r -> zero_size r = true -> rw r = 0 \/ rh r = 0.
Proof. intros Ha [S H]. unfold zero_size. rewrite !orb_true_iff, !Z.eqb_eq. lia. Qed.

(** ** Locality of drawing *)
Lemma msg_unknown_dec g q : Z.of_nat (length (gdata g)) = gw g * gh g -> msg_unknown g q \/ ~ msg_unknown g q.
Proof.
  intros L. destruct q as [[qx qy] qa].
  destruct (existsb (fun i => (gposx g i =? qx) && (gposy g i =? qy) && (value g i <? 0)) (cells g)) eqn:E.
  - left. apply existsb_exists in E. destruct E as (i & Hi & H). rewrite !andb_true_iff, !Z.eqb_eq, Z.ltb_lt in H.
    exists i. split; [apply (in_cells g L); assumption|tauto].
  - right. intros (i & Hi & Hx & Hy & Hv). assert (existsb (fun i => (gposx g i =? qx) && (gposy g i =? qy) && (value g i <? 0)) (cells g) = true).
    { apply existsb_exists. exists i. split; [apply (in_cells g L); assumption|]. rewrite !andb_true_iff, !Z.eqb_eq, Z.ltb_lt. tauto. }
    congruence.
Qed.
Lemma cell_spec_functional k g m q v a b : Z.of_nat (length (gdata g)) = gw g * gh g ->
  cell_spec k g m q v a -> cell_spec k g m q v b -> a = b.
Proof.
  intros L [A1 A2] [B1 B2].
  assert (D : (f_keep k = true /\ msg_unknown g q /\ v < 0) \/ ~ (f_keep k = true /\ msg_unknown g q /\ v < 0)).
  { destruct (f_keep k); [|right; intros [? _]; discriminate]. destruct (Z_lt_le_dec v 0); [|right; lia].
    destruct (msg_unknown_dec g q L); [left; auto|right; tauto]. }
  destruct D as [D|D]; [rewrite A1, B1; auto|].
  destruct (A2 D) as (a1 & a2 & a3), (B2 D) as (b1 & b2 & b3).
  assert (a <= b) by (destruct a3 as [->|a3]; [assumption|auto]).
  assert (b <= a) by (destruct b3 as [->|b3]; [assumption|auto]). lia.
Qed.
Lemma clear_dims k g m m' q : same_dims m m' -> clear_target k g m q <-> clear_target k g m' q.
Proof. intros _. destruct q as [[? ?] ?]. unfold clear_target. tauto. Qed.

Lemma generate_local k g m1 m2 d1 d2 q : good_msg g -> 0 <= f_r k -> wf m1 -> wf m2 -> same_dims m1 m2 ->
  generate k g m1 = Ok d1 -> generate k g m2 = Ok d2 -> in_map m1 q -> peek m1 q = peek m2 q -> peek d1 q = peek d2 q.
Proof.
  intros (W & L & _) R W1 W2 D E1 E2 I P. unfold generate in E1, E2.
  destruct (clear_area_ok k g L m1 W1) as (c1 & C1 & Wc1 & Dc1 & H1).
  destruct (clear_area_ok k g L m2 W2) as (c2 & C2 & Wc2 & Dc2 & H2). rewrite C1 in E1. rewrite C2 in E2. cbn [bind] in E1, E2.
  assert (I2 : in_map m2 q) by (apply (same_dims_in_map m1 m2); assumption).
  assert (Pc : peek c1 q = peek c2 q).
  { destruct (H1 q I) as (a1 & b1), (H2 q I2) as (a2 & b2).
    destruct b1 as [b1|[b1 b1']].
    - destruct b2 as [b2|[b2 b2']]; [congruence|]. rewrite b2'. apply a1, (clear_dims k g m1 m2); assumption.
    - rewrite b1'. symmetry. apply a2, (clear_dims k g m1 m2); assumption. }
  assert (Y : forall m c, same_dims m c -> NoDup (range_excl 0 (ca c)) /\ forall a, In a (range_excl 0 (ca c)) -> 0 <= a < ca c).
  { intros. split; [apply range_incl_NoDup|]. intros a. apply in_range_excl. }
  destruct (Y m1 c1 Dc1) as [N1 B1], (Y m2 c2 Dc2) as [N2 B2].
  destruct (generate_yaws_ok k g R W L (range_excl 0 (ca c1)) c1 Wc1 N1 B1) as (e1 & F1 & We1 & De1 & S1).
  destruct (generate_yaws_ok k g R W L (range_excl 0 (ca c2)) c2 Wc2 N2 B2) as (e2 & F2 & We2 & De2 & S2).
  rewrite E1 in F1. injection F1 as <-. rewrite E2 in F2. injection F2 as <-.
  assert (J1 : in_map c1 q) by (apply (same_dims_in_map m1 c1); assumption).
  assert (J2 : in_map c2 q) by (apply (same_dims_in_map m2 c2); assumption).
  assert (Hs : forall c, in_map c q -> In (snd q) (range_excl 0 (ca c))).
  { intros c J. destruct q as [[qx qy] qa]. cbn in *. apply in_range_excl. tauto. }
  destruct (S1 q J1) as [T1 _], (S2 q J2) as [T2 _]. specialize (T1 (Hs c1 J1)). specialize (T2 (Hs c2 J2)).
  assert (D12 : same_dims c1 c2).
  { eapply same_dims_trans; [apply same_dims_sym; exact Dc1|]. eapply same_dims_trans; [exact D|exact Dc2]. }
  apply (cell_spec_dims k g c1 c2) in T1; [|assumption]. rewrite Pc in T1. eapply cell_spec_functional; eassumption.
Qed.

Lemma merge_superset t r q : sized t -> sized r -> in_region t q \/ in_region r q -> in_region (merge t r) q.
Proof. intros St Sr. apply (C21_merge_is_the_bounding_box t r St Sr). Qed.

(** ** Layers *)
Definition kind_ok (k : kind) : Prop := match k with Foot k => 0 <= f_r k | _ => True end.
Definition msg_ok (m : omsg) : Prop := good_msg (o_grid m) /\ 0 <= o_w m /\ 0 <= o_h m.

(** The cost that a layer shows at [q] when it works on [parent]. *)
Definition shows (l : layer) (parent : cmap) (q : cell) (v : Z) : Prop :=
  match l_kind l with
  | Foot k =>
      match l_msg l with
      | Some m => if o_frame m then exists d, generate k (o_grid m) parent = Ok d /\ v = peek d q else v = peek parent q
      | None => v = peek parent q
      end
  | Unknown c => v = if peek parent q <? 0 then c else peek parent q
  | StopProp => v = -1
  | _ => v = peek parent q
  end.

Definition layer_pre (a : Z) (parent : cmap) (l : layer) : Prop :=
  wf (l_over l) /\ same_dims (l_over l) parent /\
  tall a (l_region l) /\ tall a (l_prev l) /\ tall a (l_oprev l) /\ kind_ok (l_kind l) /\
  (forall m, l_msg l = Some m -> msg_ok m).
Definition settled (parent : cmap) (l : layer) : Prop :=
  forall q, in_map parent q -> in_region (l_region l) q \/ l_kind l = StopProp -> shows l parent q (peek (l_over l) q).

Lemma shows_local l p1 p2 q v1 v2 : kind_ok (l_kind l) -> (forall m, l_msg l = Some m -> msg_ok m) ->
  wf p1 -> wf p2 -> same_dims p1 p2 -> in_map p1 q -> peek p1 q = peek p2 q -> shows l p1 q v1 -> shows l p2 q v2 -> v1 = v2.
Proof.
  intros K M W1 W2 D I P. unfold shows. destruct (l_kind l) as [k|c| | |]; [|rewrite P; congruence|congruence..].
  destruct (l_msg l) as [m|]; [|congruence]. destruct (o_frame m); [|congruence].
  intros (d1 & E1 & ->) (d2 & E2 & ->). destruct (M m eq_refl) as (G & _). exact (generate_local k (o_grid m) p1 p2 d1 d2 q G K W1 W2 D E1 E2 I P).
Qed.

Lemma generate_total k g m : good_msg g -> 0 <= f_r k -> wf m -> exists d, generate k g m = Ok d /\ wf d /\ same_dims m d.
Proof.
  intros (W & L & _) R Wm. destruct (generate_ok k g R W L m Wm) as (d & E & Wd & D & _). eauto.
Qed.

(** handle_unknown *)
Lemma handle_unknown_ok c r m : wf m -> 0 <= rx r -> 0 <= ry r -> 0 <= rz r ->
  exists m', handle_unknown c r m = Ok m' /\ wf m' /\ same_dims m m' /\
    forall q, in_map m q -> (in_region r q -> peek m' q = if peek m q <? 0 then c else peek m q) /\
                           (~ in_region r q -> peek m' q = peek m q).
Proof.
  intros W Hx Hy Hz.
  assert (Loop : forall (A : Type) (f : cmap -> A -> outcome cmap) (P : A -> cell -> Prop) (l : list A) d,
     wf d -> same_dims m d -> NoDup l ->
     (forall i j q, In i l -> In j l -> P i q -> P j q -> i = j) ->
     (forall i q, P i q \/ ~ P i q) ->
     (forall d i, In i l -> wf d -> same_dims m d -> exists d', f d i = Ok d' /\ wf d' /\ same_dims m d' /\
        forall q, in_map m q -> (P i q -> peek d' q = if peek d q <? 0 then c else peek d q) /\ (~ P i q -> peek d' q = peek d q)) ->
     exists d', foldM f l d = Ok d' /\ wf d' /\ same_dims m d' /\
        forall q, in_map m q -> ((exists i, In i l /\ P i q) -> peek d' q = if peek d q <? 0 then c else peek d q) /\
                               ((forall i, In i l -> ~ P i q) -> peek d' q = peek d q)).
  { clear. intros A f P l. induction l as [|i l IH]; intros d W D N U De H.
    - exists d. split; [reflexivity|]. split; [assumption|]. split; [assumption|]. intros q _. split; [intros (i & [] & _)|auto].
    - inversion N as [|? ? Ni N']; subst.
      destruct (H d i (or_introl eq_refl) W D) as (d1 & E1 & W1 & D1 & P1).
      destruct (IH d1 W1 D1 N' (fun a b q Ha Hb => U a b q (or_intror Ha) (or_intror Hb)) De (fun d j Hj => H d j (or_intror Hj))) as (d2 & E2 & W2 & D2 & P2).
      exists d2. cbn [foldM]. rewrite E1. cbn [bind]. split; [assumption|]. split; [assumption|]. split; [assumption|].
      intros q I. destruct (P1 q I) as [p1 p1'], (P2 q I) as [p2 p2']. destruct (De i q) as [T|T].
      + assert (Nt : forall j, In j l -> ~ P j q).
        { intros j Hj Tj. assert (i = j) by (apply (U i j q); [left; auto|right; auto|auto|auto]). subst j. contradiction. }
        split; intros HH; [rewrite p2', p1; auto|]. destruct (HH i (or_introl eq_refl) T).
      + split; intros HH.
        * destruct HH as (j & [<-|Hj] & Tj); [contradiction|]. rewrite p2, p1'; eauto.
        * rewrite p2', p1'; auto. intros j Hj. apply HH. right; auto. }
  unfold handle_unknown.
  set (Pa := fun a (q : cell) => snd q = a /\ rx r <= fst (fst q) < rx r + rw r /\ ry r <= snd (fst q) < ry r + rh r).
  set (Py := fun a y (q : cell) => snd q = a /\ snd (fst q) = y /\ rx r <= fst (fst q) < rx r + rw r).
  set (Px := fun a y x (q : cell) => q = (x, y, a)).
  destruct (Loop Z (fun m a => foldM (fun m y => foldM (fun m x => do v <- getc m x y a; if v <? 0 then setc m x y a c else Ok m)
      (range_excl (rx r) (Z.min (rx r + rw r) (cw m))) m) (range_excl (ry r) (Z.min (ry r + rh r) (ch m))) m) Pa
      (range_excl (rz r) (Z.min (rz r + ra r) (ca m))) m W (same_dims_refl m) (range_incl_NoDup _ _)) as (m' & E & W' & D' & P').
  - intros i j q _ _ [E1 _] [E2 _]. congruence.
  - intros i q. unfold Pa. lia.
  - intros d a Ha Wd Dd. apply in_range_excl in Ha. pose proof Dd as (Dw & Dh & Dc).
    destruct (Loop Z (fun m y => foldM (fun m x => do v <- getc m x y a; if v <? 0 then setc m x y a c else Ok m)
      (range_excl (rx r) (Z.min (rx r + rw r) (cw m))) m) (Py a)
      (range_excl (ry r) (Z.min (ry r + rh r) (ch d))) d Wd Dd (range_incl_NoDup _ _)) as (d' & E & W' & D' & P').
    + intros i j q _ _ (_ & E1 & _) (_ & E2 & _). congruence.
    + intros i q. unfold Py. lia.
    + intros e y Hyy We De. apply in_range_excl in Hyy. pose proof De as (Ew & Eh & Ec).
      destruct (Loop Z (fun m x => do v <- getc m x y a; if v <? 0 then setc m x y a c else Ok m) (Px a y)
        (range_excl (rx r) (Z.min (rx r + rw r) (cw e))) e We De (range_incl_NoDup _ _)) as (e' & E & W' & D' & P').
      * intros i j q _ _ -> E. unfold Px in E. congruence.
      * intros i [[x' y'] a']. unfold Px. destruct (Z.eq_dec x' i), (Z.eq_dec y' y), (Z.eq_dec a' a); subst; auto; right; congruence.
      * intros h x Hxx Wh Dh'. apply in_range_excl in Hxx. pose proof Dh' as (Gw & Gh & Gc).
        assert (I : in_map h (x, y, a)) by (cbn; lia). rewrite getc_ok by assumption. cbn [bind].
        destruct (Z.ltb_spec (peek h (x, y, a)) 0).
        -- destruct (setc_ok h x y a c Wh I) as (h' & Eh' & Wh' & Dh2 & Ph). exists h'. split; [assumption|]. split; [assumption|].
           split; [eapply same_dims_trans; eassumption|]. intros q Iq. rewrite Ph by (apply (same_dims_in_map m h); assumption).
           destruct (cell_eqb q (x, y, a)) eqn:Cq.
           ++ apply cell_eqb_iff in Cq. subst q. split; [|intros N; exfalso; apply N; reflexivity].
              intros _. rewrite (proj2 (Z.ltb_lt _ _)) by assumption. reflexivity.
           ++ split; [|auto]. intros Eq. unfold Px in Eq. apply cell_eqb_iff in Eq. congruence.
        -- exists h. split; [reflexivity|]. split; [assumption|]. split; [assumption|]. intros q Iq. split; [|auto].
           intros Eq. unfold Px in Eq. subst q. rewrite (proj2 (Z.ltb_ge _ _)) by assumption. reflexivity.
      * exists e'. split; [exact E|]. split; [assumption|]. split; [assumption|]. intros q Iq. destruct (P' q Iq) as [p1 p2].
        destruct q as [[qx qy] qa]. unfold Py, Px in *. cbn [fst snd] in *. cbn in Iq. split.
        -- intros (-> & -> & Q). apply p1. exists qx. split; [apply in_range_excl; lia|reflexivity].
        -- intros N. apply p2. intros i Hi Eq. injection Eq as -> -> ->. apply in_range_excl in Hi. lia.
    + exists d'. split; [exact E|]. split; [assumption|]. split; [assumption|]. intros q Iq. destruct (P' q Iq) as [p1 p2].
      destruct q as [[qx qy] qa]. unfold Py, Pa in *. cbn [fst snd] in *. cbn in Iq. split.
      * intros (-> & Q1 & Q2). apply p1. exists qy. split; [apply in_range_excl; lia|]. lia.
      * intros N. apply p2. intros i Hi (-> & -> & Q). apply in_range_excl in Hi. lia.
  - exists m'. split; [exact E|]. split; [assumption|]. split; [assumption|]. intros q Iq. destruct (P' q Iq) as [p1 p2].
    destruct q as [[qx qy] qa]. unfold Pa in *. cbn [fst snd] in *. cbn in Iq. cbn [in_region]. split.
    + intros (Q1 & Q2 & Q3). apply p1. exists qa. split; [apply in_range_excl; lia|]. lia.
    + intros N. apply p2. intros i Hi (-> & Q1 & Q2). apply in_range_excl in Hi. lia.
Qed.

(** ** The update message *)

(** Rows of a block copied into the message array. *)
Definition upd_cell (u : update) (x y a : Z) : Z :=
  nth (Z.to_nat (((a - u_yaw u) * u_h u + (y - u_y u)) * u_w u + (x - u_x u))) (u_data u) 0.
Definition in_update (u : update) (q : cell) : Prop :=
  let '(x, y, a) := q in u_x u <= x < u_x u + u_w u /\ u_y u <= y < u_y u + u_h u /\ u_yaw u <= a < u_yaw u + u_a u.

(** Filling rows (row = heading * height + y) of a [w]-wide array, row [i] from [src] at [off i]. *)
Definition filled (w : Z) (src : list Z) (off : Z -> Z) (S : Z -> bool) (d d' : list Z) : Prop :=
  length d' = length d /\
  forall i x, 0 <= i -> 0 <= x < w -> (i + 1) * w <= Z.of_nat (length d) ->
    nth (Z.to_nat (i * w + x)) d' 0 = if S i then nth (Z.to_nat (off i + x)) src 0 else nth (Z.to_nat (i * w + x)) d 0.
Lemma filled_loop {A} (f : list Z -> A -> outcome (list Z)) (S : A -> Z -> bool) w src off (l : list A) n d :
  length d = n ->
  (forall d i, In i l -> length d = n -> exists d', f d i = Ok d' /\ filled w src off (S i) d d') ->
  exists d', foldM f l d = Ok d' /\ filled w src off (fun r => existsb (fun i => S i r) l) d d'.
Proof.
  revert d. induction l as [|i l IH]; intros d L H.
  - exists d. split; [reflexivity|]. split; [reflexivity|]. reflexivity.
  - destruct (H d i (or_introl eq_refl) L) as (d1 & E1 & L1 & P1).
    destruct (IH d1 (eq_trans L1 L) (fun d i Hi => H d i (or_intror Hi))) as (d2 & E2 & L2 & P2).
    exists d2. cbn [foldM]. rewrite E1. cbn [bind]. split; [assumption|]. split; [congruence|].
    intros r x Hr Hx Hb. rewrite P2, P1 by (rewrite ?L1; assumption). cbn [existsb].
    destruct (S i r); cbn [orb]; [|reflexivity]. destruct (existsb _ l); reflexivity.
Qed.
Lemma filled_row w src off i d : 0 <= w -> 0 <= i -> (i + 1) * w <= Z.of_nat (length d) -> 0 <= off i -> off i + w <= Z.of_nat (length src) ->
  exists d', blit d (i * w) src (off i) w = Ok d' /\ filled w src off (fun r => r =? i) d d'.
Proof.
  intros Hw H1 H2 H3 H4.
  destruct (blit_spec d (i * w) src (off i) w Hw ltac:(nia) ltac:(nia) H3 H4) as (d1 & E1 & L1 & P1).
  exists d1. split; [assumption|]. split; [assumption|]. intros j x Hj Hx Hb.
  rewrite P1 by nia. destruct (Z.eqb_spec j i) as [->|Ne].
  - rewrite (proj2 (Nat.leb_le _ _)), (proj2 (Nat.ltb_lt _ _)) by nia. cbn [andb]. f_equal. nia.
  - destruct (Z_lt_le_dec j i).
    + rewrite (proj2 (Nat.leb_gt _ _)) by nia. reflexivity.
    + rewrite (proj2 (Nat.ltb_ge (Z.to_nat (j * w + x)) _)) by nia. rewrite andb_false_r. reflexivity.
Qed.

(** Regions inside a map. *)
Definition fits (m : cmap) (r : region) : Prop :=
  sized r /\ 0 <= rx r /\ 0 <= ry r /\ rx r + rw r <= cw m /\ ry r + rh r <= ch m.
Lemma normalize_fits m r : fits m r -> normalize r (cw m) (ch m) = r.
Proof.
  intros ((S1 & S2 & S3) & H1 & H2 & H3 & H4). unfold normalize.
  rewrite (proj2 (Z.ltb_ge (rx r) 0)), (proj2 (Z.ltb_ge (ry r) 0)) by lia.
  rewrite (proj2 (Z.ltb_ge (cw m) _)), (proj2 (Z.ltb_ge (ch m) _)) by lia.
  rewrite (proj2 (Z.ltb_ge (rw r) 0)), (proj2 (Z.ltb_ge (rh r) 0)) by lia. destruct r; reflexivity.
Qed.
Lemma fits_normalize m r : wf m -> sized r -> zero_size (normalize r (cw m) (ch m)) = false -> fits m (normalize r (cw m) (ch m)).
Proof.
  intros (Hw & Hh & _) S Z. destruct (C21_normalize_is_the_part_inside r (cw m) (ch m) Hw Hh) as [S' _]. specialize (S' S).
  apply zero_size_false in Z; [|assumption].
  destruct (normalize_spec r (cw m) (ch m) Hw Hh) as (R1 & R2 & R3 & R4 & R5 & R6 & _).
  split; [assumption|]. lia.
Qed.
Lemma fits_empty m : wf m -> fits m empty_region.
Proof. intros (Hw & Hh & _). split; [unfold sized; cbn; lia|]. cbn. lia. Qed.

Lemma gen_update_ok a m reg oprev : wf m -> ca m = a -> 0 < a -> tall a reg -> tall a oprev -> fits m reg ->
  (fits m oprev \/ zero_size reg = false) ->
  exists u, gen_update m reg oprev = Ok (u, reg) /\
    (zero_size reg = true -> forall q, ~ in_update u q) /\
    (zero_size reg = false -> (forall q, in_map m q -> in_update u q <-> in_region (merge reg oprev) q) /\
       (forall q, in_update u q -> in_map m q /\ upd_cell u (fst (fst q)) (snd (fst q)) (snd q) = peek m q)).
Proof.
  intros W Ha Pa Tr To Fr Fo. pose proof W as (Hw & Hh & Hc & HL).
  set (g := normalize (merge reg oprev) (cw m) (ch m)).
  assert (Tg : tall a g) by (apply tall_normalize; [assumption..|]; apply tall_merge; assumption).
  unfold gen_update. rewrite (normalize_fits m reg Fr). fold g.
  destruct (normalize_spec (merge reg oprev) (cw m) (ch m) Hw Hh) as (G1 & G2 & G3 & G4 & G5 & G6 & G7 & G8 & _ & G9 & G10).
  fold g in G1, G2, G3, G4, G5, G6, G7, G8, G9, G10.
  destruct (zero_size reg) eqn:Zr.
  - destruct Fo as [Fo|?]; [|discriminate].
    assert (Fg : fits m g).
    { assert (fits m (merge reg oprev)). { unfold merge. rewrite Zr. destruct (zero_size oprev); assumption. }
      unfold g. rewrite normalize_fits; assumption. }
    destruct Fg as ((S1 & S2 & S3) & F1 & F2 & F3 & F4).
    rewrite (proj2 (Z.leb_le _ _)) by nia.
    destruct (tall_zero a reg Pa Tr Zr) as [E|E]; rewrite E, Z.eqb_refl; cbn [orb]; rewrite ?orb_true_r;
    (eexists; split; [reflexivity|]; split; [|discriminate]; intros _ [[x y] z]; cbn; lia).
  - clear Fo. pose proof Zr as Zr'. apply zero_size_false in Zr'; [|apply Tr].
    assert (Sm : sized (merge reg oprev)) by (apply C21_merge_is_the_bounding_box; [apply Tr|apply To]).
    destruct (C21_merge_is_the_bounding_box reg oprev (proj1 Tr) (proj1 To)) as (_ & Sub & _).
    assert (C : in_region (merge reg oprev) (rx reg, ry reg, rz reg)). { apply Sub. left. cbn. lia. }
    destruct Fr as (Sr & F1 & F2 & F3 & F4). cbn in C.
    assert (W1 : 0 < rw g) by (specialize (G9 (rx reg)); lia).
    assert (H1 : 0 < rh g) by (specialize (G10 (ry reg)); lia).
    assert (Tz : rz g = 0 /\ ra g = a) by (destruct Tg as [_ T]; lia). destruct Tz as [Tz Ta].
    specialize (G5 W1). specialize (G6 H1).
    rewrite (proj2 (Z.leb_le _ _)) by nia. rewrite (proj2 (Z.eqb_neq (rw reg) 0)), (proj2 (Z.eqb_neq (rh reg) 0)) by lia. cbn [orb].
    assert (IU : forall q, in_map m q -> in_region g q <-> in_region (merge reg oprev) q).
    { intros [[x y] z] I. unfold in_region. rewrite G9, G10, G7, G8. cbn in I. tauto. }
    assert (IM : forall q, in_region g q -> in_map m q).
    { intros [[x y] z]. cbn. lia. }
    set (n := Z.to_nat (rw g * rh g * ra g)). set (blank := repeat 0 n).
    assert (Lb : Z.of_nat (length blank) = rw g * rh g * ra g). { unfold blank, n. rewrite repeat_length. nia. }
    match goal with |- context [bind ?e _] => set (copy := e) end.
    assert (HC : exists data, copy = Ok data /\ forall x y z, in_region g (x, y, z) ->
       nth (Z.to_nat (((z - rz g) * rh g + (y - ry g)) * rw g + (x - rx g))) data 0 = peek m (x, y, z)).
    { unfold copy. destruct (_ && _)%bool eqn:Full.
      - rewrite !andb_true_iff, !Z.eqb_eq in Full. destruct Full as (((((f1 & f2) & f3) & f4) & f5) & f6).
        destruct (blit_spec blank 0 (cdata m) (address m 0 0 0) (Z.of_nat (length blank))) as (d & E & L & P).
        + lia. + lia. + lia. + unfold address. lia. + unfold address. rewrite HL, Lb, f4, f5, f6. lia.
        + exists d. split; [exact E|]. intros x y z I. rewrite f1, f2, f3, f4, f5, !Z.sub_0_r.
          pose proof (IM _ I) as I2. pose proof (address_bounds m x y z I2) as AB. unfold peek.
          change ((z * ch m + y) * cw m + x) with (address m x y z). rewrite P.
          * rewrite (proj2 (Nat.leb_le _ _)), (proj2 (Nat.ltb_lt _ _)) by lia. cbn [andb].
            unfold address at 2. cbn [Z.to_nat Z.mul Z.add]. rewrite Nat.sub_0_r, Nat.add_0_r. apply nth_indep. lia.
          * rewrite f4, f5, f6 in Lb. lia.
      - set (off := fun r => address m (rx g) (ry g + r mod rh g) (rz g + r / rh g)).
        destruct (filled_loop (fun d k => foldM (fun d j => blit d ((k * rh g + j) * rw g) (cdata m) (address m (rx g) (ry g + j) (rz g + k)) (rw g))
                (range_excl 0 (rh g)) d) (fun k r => existsb (fun j => r =? k * rh g + j) (range_excl 0 (rh g))) (rw g) (cdata m) off
              (range_excl 0 (ra g)) (length blank) blank eq_refl) as (d & E & L & P).
        + intros d k Hk Ld. apply in_range_excl in Hk.
          apply (filled_loop _ (fun j r => r =? k * rh g + j) (rw g) (cdata m) off _ (length blank) d Ld).
          clear d Ld. intros d j Hj Ld. apply in_range_excl in Hj.
          assert (Oj : off (k * rh g + j) = address m (rx g) (ry g + j) (rz g + k)).
          { unfold off. rewrite (Z.add_comm (k * rh g) j), Z.mod_add, Z.div_add, Z.mod_small, Z.div_small by lia. reflexivity. }
          rewrite <- Oj.
          assert (IC : in_map m (rx g, ry g + j, rz g + k)) by (cbn; lia).
          pose proof (address_bounds m _ _ _ IC) as AB.
          assert (IC2 : in_map m (rx g + (rw g - 1), ry g + j, rz g + k)) by (cbn; lia).
          pose proof (address_bounds m _ _ _ IC2) as AB2. unfold address in AB, AB2.
          assert (K1 : k * rh g + j + 1 <= rh g * ra g).
          { replace (k * rh g + j + 1) with (rh g * k + (j + 1)) by ring. assert (rh g * (k + 1) <= rh g * ra g) by (apply Z.mul_le_mono_nonneg_l; lia). lia. }
          apply filled_row.
          * lia.
          * nia.
          * rewrite Ld, Lb. assert ((k * rh g + j + 1) * rw g <= (rh g * ra g) * rw g) by (apply Z.mul_le_mono_nonneg_r; lia). lia.
          * rewrite Oj. unfold address. lia.
          * rewrite Oj, HL. unfold address. lia.
        + exists d. split; [exact E|]. intros x y z I. pose proof (IM _ I) as I2. cbn in I.
          assert (K0 : 0 <= (z - rz g) * rh g) by (apply Z.mul_nonneg_nonneg; lia).
          assert (K1 : (z - rz g) * rh g + (y - ry g) + 1 <= rh g * ra g).
          { assert ((z - rz g) * rh g + rh g <= rh g * ra g).
            { replace ((z - rz g) * rh g + rh g) with (rh g * (z - rz g + 1)) by ring. apply Z.mul_le_mono_nonneg_l; lia. } lia. }
          rewrite P; [| lia | lia |].
          2:{ rewrite Lb. assert (((z - rz g) * rh g + (y - ry g) + 1) * rw g <= (rh g * ra g) * rw g) by (apply Z.mul_le_mono_nonneg_r; lia). lia. }
          rewrite (proj2 (existsb_exists _ _)).
          * unfold off. replace ((z - rz g) * rh g + (y - ry g)) with ((y - ry g) + (z - rz g) * rh g) by lia.
            rewrite Z.mod_add, Z.div_add, Z.mod_small, Z.div_small by lia.
            unfold peek. pose proof (address_bounds m x y z I2) as AB. unfold address in *. 
            replace (((rz g + (0 + (z - rz g))) * ch m + (ry g + (y - ry g))) * cw m + rx g + (x - rx g)) with ((z * ch m + y) * cw m + x) by nia.
            apply nth_indep. lia.
          * exists (z - rz g). split; [apply in_range_excl; lia|]. apply existsb_exists. exists (y - ry g).
            split; [apply in_range_excl; lia|]. apply Z.eqb_refl. }
    destruct HC as (data & -> & HD). cbn [bind]. eexists. split; [reflexivity|]. split; [discriminate|]. intros _.
    assert (IG : forall q, in_update (Update (rx g) (ry g) (rz g) (rw g) (rh g) (ra g) data) q <-> in_region g q).
    { intros [[x y] z]. reflexivity. }
    split.
    + intros q I. rewrite IG. apply IU. assumption.
    + intros [[x y] z] I. apply IG in I. split; [apply IM; assumption|]. cbn [fst snd]. unfold upd_cell. cbn [u_x u_y u_yaw u_w u_h u_data].
      apply HD. exact I.
Qed.

(** ** One layer *)
Definition passed (a : Z) (p : cmap) (r : region) : Prop := tall a r /\ (zero_size r = true \/ fits p r).
Definition out_fits (p : cmap) (l : layer) : Prop := l_kind l = UpdateOut -> fits p (l_oprev l).
Definition same_conf (l l' : layer) : Prop := l_kind l = l_kind l' /\ l_msg l = l_msg l'.

Lemma tall_region_in_map a p r q : ca p = a -> tall a r -> in_map p q -> in_region r q -> zero_size r = false.
Proof.
  intros Ha [S T] I R. destruct (zero_size r) eqn:Z; [|reflexivity]. destruct (zero_size_true r q S Z R).
Qed.

Lemma reg_facts a p t r : wf p -> ca p = a -> 0 < a -> tall a t -> tall a r -> let reg := normalize (merge t r) (cw p) (ch p) in
  tall a reg /\ passed a p reg /\ 0 <= rx reg /\ 0 <= ry reg /\
  (forall q, in_map p q -> in_region reg q <-> in_region (merge t r) q) /\
  (zero_size r = false -> fits p r -> zero_size reg = false).
Proof.
  intros W Ha Pa Tt Tr reg. pose proof W as (Hw & Hh & Hc & _). pose proof (tall_merge a t r Tt Tr) as Tm.
  destruct (normalize_spec (merge t r) (cw p) (ch p) Hw Hh) as (A1 & A2 & A3 & A4 & A5 & A6 & B1 & B2 & _ & C1 & C2). fold reg in A1, A2, A3, A4, A5, A6, B1, B2, C1, C2.
  assert (Treg : tall a reg) by (apply tall_normalize; assumption).
  split; [assumption|]. split.
  { split; [assumption|]. destruct (zero_size reg) eqn:Z; [auto|right]. apply fits_normalize; [assumption|apply Tm|exact Z]. }
  split; [assumption|]. split; [assumption|]. split.
  - intros [[x y] z] I. cbn in I. unfold in_region. rewrite C1, C2, B1, B2. tauto.
  - intros Z F. apply zero_size_false; [apply Treg|]. apply zero_size_false in Z; [|apply Tr].
    assert (H : in_region (merge t r) (rx r, ry r, rz r)). { apply merge_superset; [apply Tt|apply Tr|right; cbn; lia]. }
    destruct F as (_ & F1 & F2 & F3 & F4). cbn in H. specialize (C1 (rx r)). specialize (C2 (ry r)).
    destruct Treg as (_ & _ & T). lia.
Qed.

Lemma entry_ok a p r out l : wf p -> ca p = a -> 0 < a -> layer_pre a p l ->
  (l_kind l = UpdateOut -> l_region l = empty_region) -> passed a p r -> (out_fits p l \/ zero_size r = false) ->
  exists l' r' out' ps, entry p r out l = Ok (l', r', out', ps) /\
    layer_pre a p l' /\ settled p l' /\ same_conf l l' /\ passed a p r' /\
    (l_kind l = UpdateOut -> l_region l' = empty_region) /\ out_fits p l' /\
    (l_kind l <> UpdateOut -> zero_size r = false -> zero_size r' = false).
Proof.
  intros W Ha Pa (Wo & Do & Tr & Tp & To & K & M) HU [Tr2 Pr] HF.
  pose proof W as (Hw & Hh & Hc & _).
  destruct (reg_facts a p (l_region l) r W Ha Pa Tr Tr2) as (Treg & Preg & X0 & Y0 & Ireg & Zreg).
  assert (Zreg' : zero_size r = false -> zero_size (normalize (merge (l_region l) r) (cw p) (ch p)) = false).
  { intros Z. apply Zreg; [assumption|]. destruct Pr as [Pr|Pr]; [congruence|assumption]. }
  unfold entry. set (reg := normalize (merge (l_region l) r) (cw p) (ch p)) in *.
  assert (Tnow : tall a (merge reg (l_prev l))) by (apply tall_merge; assumption).
  destruct (bitblt_ok (merge reg (l_prev l)) (l_over l) p Wo W Do (proj1 (proj2 Tnow))) as (ov & E & Wv & Dv & Pv). rewrite E. cbn [bind snd].
  assert (Inow : forall q, in_region reg q -> in_region (merge reg (l_prev l)) q).
  { intros q Q. apply merge_superset; [apply Treg|apply Tp|auto]. }
  assert (NoU : forall l2, l_kind l <> UpdateOut -> l_kind l2 = l_kind l -> out_fits p l2) by (intros l2 N E2 E3; congruence).
  destruct (l_kind l) as [k|c| | |] eqn:EK.
  - (* Foot *)
    set (draw := match l_msg l with Some m => if o_frame m then generate k (o_grid m) ov else Ok ov | None => Ok ov end).
    assert (HD : exists d, draw = Ok d /\ wf d /\ same_dims d p /\
        forall q, in_map p q -> in_region reg q -> match l_msg l with
          | Some m => if o_frame m then exists d2, generate k (o_grid m) p = Ok d2 /\ peek d q = peek d2 q else peek d q = peek p q
          | None => peek d q = peek p q end).
    { unfold draw. destruct (l_msg l) as [m|]; [destruct (o_frame m)|].
      - destruct (M m eq_refl) as (G & _). destruct (generate_total k (o_grid m) ov G K Wv) as (d & Ed & Wd & Dd).
        destruct (generate_total k (o_grid m) p G K W) as (d2 & Ed2 & Wd2 & Dd2).
        exists d. split; [assumption|]. split; [assumption|].
        split. { eapply same_dims_trans; [apply same_dims_sym; exact Dd|exact Dv]. }
        intros q I Q. exists d2. split; [assumption|].
        apply (generate_local k (o_grid m) ov p d d2 q G K Wv W Dv Ed Ed2); [apply (same_dims_in_map ov p q Dv); assumption|].
        apply (proj1 (Pv q I)). apply Inow. assumption.
      - exists ov. split; [reflexivity|]. split; [assumption|]. split; [assumption|]. intros q I Q. apply (proj1 (Pv q I)). apply Inow. assumption.
      - exists ov. split; [reflexivity|]. split; [assumption|]. split; [assumption|]. intros q I Q. apply (proj1 (Pv q I)). apply Inow. assumption. }
    destruct HD as (d & Ed & Wd & Dd & Sd). rewrite Ed. cbn [bind].
    exists (Layer (Foot k) d reg reg (l_oprev l) (l_msg l)), reg, out, []. split; [reflexivity|].
    split. { unfold layer_pre. cbn [l_over l_region l_prev l_oprev l_kind l_msg]. repeat (split; [assumption|]). assumption. }
    split. { intros q I Q. destruct Q as [Q|Q]; [cbn [l_region] in Q|cbn [l_kind] in Q; discriminate Q]. specialize (Sd q I Q). unfold shows. cbn [l_kind l_msg l_over]. exact Sd. }
    split. { split; [assumption|reflexivity]. } split; [assumption|]. split; [discriminate|]. split; [apply NoU; [discriminate|reflexivity]|auto].
  - (* Unknown *)
    destruct (handle_unknown_ok c reg ov Wv X0 Y0) as (d & Ed & Wd & Dd & Sd). { apply Treg. }
    rewrite Ed. cbn [bind]. exists (Layer (Unknown c) d reg reg (l_oprev l) (l_msg l)), reg, out, []. split; [reflexivity|].
    assert (Ddp : same_dims d p) by (eapply same_dims_trans; [apply same_dims_sym; exact Dd|exact Dv]).
    split. { unfold layer_pre. cbn [l_over l_region l_prev l_oprev l_kind l_msg]. repeat (split; [assumption|]). assumption. }
    split. { intros q I Q. destruct Q as [Q|Q]; [cbn [l_region] in Q|cbn [l_kind] in Q; discriminate Q]. unfold shows. cbn [l_kind l_msg l_over].
      assert (I2 : in_map ov q) by (apply (same_dims_in_map ov p q Dv); assumption).
      rewrite (proj1 (Sd q I2) Q). rewrite (proj1 (Pv q I) (Inow q Q)). reflexivity. }
    split. { split; [assumption|reflexivity]. } split; [assumption|]. split; [discriminate|]. split; [apply NoU; [discriminate|reflexivity]|auto].
  - (* StopProp *)
    set (full := Region 0 0 0 (cw p) (ch p) (ca p) 0).
    assert (Tf : tall a full). { split; [unfold sized, full; cbn; lia|]. cbn. lia. }
    assert (Ff : fits p full). { split; [apply Tf|]. cbn. lia. }
    assert (Dvp : same_dims (Cmap (cw ov) (ch ov) (ca ov) (map (fun _ => -1) (cdata ov))) p) by exact Dv.
    do 4 eexists. split; [reflexivity|].
    split. { unfold layer_pre. cbn [l_over l_region l_prev l_oprev l_kind l_msg].
      split. { destruct Wv as (w1 & w2 & w3 & w4). unfold wf. cbn. rewrite map_length. auto. }
      repeat (split; [assumption|]). assumption. }
    split. { intros q I Q. unfold shows. cbn [l_kind l_over]. destruct q as [[x y] z]. unfold peek. cbn [cdata].
      exact (map_nth (fun _ => -1) (cdata ov) 0 _). }
    split. { split; [assumption|reflexivity]. } split; [split; [assumption|right; assumption]|].
    split; [discriminate|]. split; [apply NoU; [discriminate|reflexivity]|].
    intros _ Z. apply zero_size_false; [apply Tf|]. cbn. destruct Pr as [Pr|(_ & f1 & f2 & f3 & f4)]; [congruence|].
    apply zero_size_false in Z; [|apply Tr2]. lia.
  - (* StaticOut *)
    exists (Layer StaticOut ov reg reg (l_oprev l) (l_msg l)), reg, false, (if out then [PubMap p] else []). split; [reflexivity|].
    split. { unfold layer_pre. cbn [l_over l_region l_prev l_oprev l_kind l_msg]. repeat (split; [assumption|]). assumption. }
    split. { intros q I Q. destruct Q as [Q|Q]; [cbn [l_region] in Q|cbn [l_kind] in Q; discriminate Q]. unfold shows. cbn [l_kind l_over]. apply (proj1 (Pv q I)), Inow, Q. }
    split. { split; [assumption|reflexivity]. } split; [assumption|]. split; [discriminate|]. split; [apply NoU; [discriminate|reflexivity]|auto].
  - (* UpdateOut *)
    specialize (HU eq_refl).
    assert (Freg : fits p reg).
    { unfold reg. rewrite HU. destruct (zero_size r) eqn:Z.
      - unfold merge. rewrite Z. rewrite normalize_fits; apply fits_empty; assumption.
      - destruct Pr as [Pr|Pr]; [congruence|]. unfold merge. rewrite Z. cbn [zero_size empty_region rw rh ra Z.eqb orb]. rewrite normalize_fits; assumption. }
    assert (HF2 : fits p (l_oprev l) \/ zero_size reg = false).
    { destruct HF as [HF|HF]; [left; apply HF; assumption|right; auto]. }
    destruct (gen_update_ok a p reg (l_oprev l) W Ha Pa Treg To Freg HF2) as (u & Eu & _). rewrite Eu. cbn [bind fst snd].
    do 4 eexists. split; [reflexivity|].
    split. { unfold layer_pre. cbn [l_over l_region l_prev l_oprev l_kind l_msg]. repeat (split; [first [assumption|apply tall_empty]|]). assumption. }
    split. { intros [[x y] z] I [Q|Q]; [cbn in Q; lia|discriminate Q]. }
    split. { split; [assumption|reflexivity]. } split. { split; [apply tall_empty|left; reflexivity]. }
    split; [reflexivity|]. split; [intros _; exact Freg|]. intros N. congruence.
Qed.
