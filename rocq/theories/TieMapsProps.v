(** C76: the maps that are tied together. *)
From Coq Require Import Reals ZArith Ascii String List Lia.
From Verif Require Import Common ObjCloud ObjCloudProps TieMaps.
Import ListNotations.

(** ** Specification *)
(** The directory [d] of the file [f]. *)
Definition in_dir (f d : name) : Prop :=
  exists base k, base <> [] /\ ~ In SLASH base /\
  ((f = base ++ repeat SLASH k /\ d = ["."%char]) \/
   (exists n, f = repeat SLASH (S n) ++ base ++ repeat SLASH k /\ d = [SLASH]) \/
   (exists d' c n, c <> SLASH /\ d = d' ++ [c] /\ f = d ++ repeat SLASH (S n) ++ base ++ repeat SLASH k)).
(** Where the image [img] named in the file [f] is. *)
Definition image_at (f img path : name) : Prop :=
  (exists r, img = SLASH :: r /\ path = img) \/
  (exists c r d, img = c :: r /\ c <> SLASH /\ in_dir f d /\ path = d ++ [SLASH] ++ img).
Definition wants_mode (e : entry name) (m : mapmode) : Prop :=
  match e with
  | Value s => (s = nm "trinary" /\ m = TRINARY) \/ (s = nm "scale" /\ m = SCALE) \/ (s = nm "raw" /\ m = RAW)
  | _ => m = TRINARY
  end.
Definition wants_height (e : entry R) (h : R) : Prop := match e with Value v => h = v | _ => h = 0%R end.

Section Props.
  Variable new_yaml : bool.
  Variable open : name -> content.
  Variable load : name -> R -> Z -> R -> R -> R * R * R -> mapmode -> option Z.
  Variable frame : name.

  (** The file [f] describes the map [m]. *)
  Definition describes (f : name) (m : omap) : Prop :=
    exists d r n oc fr og img path mode,
      open f = Yaml d /\ d_resolution d = Value r /\ d_negate d = Value n /\ d_occupied d = Value oc /\ d_free d = Value fr /\
      d_origin d = Value og /\ d_image d = Value img /\ image_at f img path /\ wants_mode (d_mode d) mode /\
      load path r n oc fr og mode = Some (o_loaded m) /\ wants_height (d_height d) (o_z m) /\ o_frame m = frame.

  (** Names of files are not made of slashes only. *)
  Definition named (f : name) : Prop := exists c, In c f /\ c <> SLASH.

  Fixpoint numbered (i : nat) (ms : list omap) : list effect :=
    match ms with [] => [] | m :: ms' => PubMap i m :: numbered (S i) ms' end.

  (** ** Directories *)
  Lemma strip_spec r : exists k, r = repeat SLASH k ++ strip r /\ (strip r = [] \/ exists c r', strip r = c :: r' /\ c <> SLASH).
  Proof.
    induction r as [|c r (k & E & H)]; cbn [strip]; [exists 0%nat; split; [reflexivity|left; reflexivity]|].
    destruct (Ascii.eqb_spec c SLASH) as [->|N].
    - exists (S k). split; [cbn [repeat app]; f_equal; exact E|exact H].
    - exists 0%nat. split; [reflexivity|right; eauto].
  Qed.
  Lemma after_spec r : match after_slash r with
    | None => ~ In SLASH r
    | Some r' => exists b, ~ In SLASH b /\ r = b ++ SLASH :: r'
    end.
  Proof.
    induction r as [|c r IH]; cbn [after_slash]; [intros []|]. destruct (Ascii.eqb_spec c SLASH) as [->|N].
    - exists []. split; [intros []|reflexivity].
    - destruct (after_slash r) as [r'|].
      + destruct IH as (b & H & ->). exists (c :: b). split; [intros [G|G]; [congruence|exact (H G)]|reflexivity].
      + intros [G|G]; [congruence|exact (IH G)].
  Qed.
  Lemma rev_repeat {A} (a : A) n : rev (repeat a n) = repeat a n.
  Proof. induction n as [|n IH]; [reflexivity|]. cbn [repeat rev]. rewrite IH. symmetry. apply repeat_cons. Qed.

  Lemma dirname_in f : named f -> in_dir f (dirname f).
  Proof.
    intros (c0 & I0 & N0). unfold dirname. destruct f as [|x f']; [destruct I0|]. set (f := x :: f') in *.
    destruct (strip_spec (rev f)) as (k & E & H). assert (F : f = rev (strip (rev f)) ++ repeat SLASH k).
    { rewrite <- (rev_involutive f) at 1. rewrite E at 1. rewrite rev_app_distr, rev_repeat. reflexivity. }
    destruct H as [H|(c & r' & H & N)].
    - exfalso. rewrite H in F. cbn [rev app] in F. rewrite F in I0. apply repeat_spec in I0. congruence.
    - rewrite H in *. clear H E. assert (A := after_spec (c :: r')). cbv iota in A.
      destruct (after_slash (c :: r')) as [r1|].
      + destruct A as (b & Hb & E). assert (Nb : rev b <> []).
        { destruct b as [|y b]; [cbn [app] in E; injection E as -> _; congruence|]. cbn [rev]. intros G. apply app_eq_nil in G. destruct G; discriminate. }
        assert (Hb' : ~ In SLASH (rev b)) by (rewrite <- in_rev; exact Hb).
        rewrite E, rev_app_distr in F. cbn [rev] in F.
        destruct (strip_spec r1) as (n & E1 & H1).
        assert (F1 : rev r1 = rev (strip r1) ++ repeat SLASH n) by (rewrite E1 at 1; rewrite rev_app_distr, rev_repeat; reflexivity).
        rewrite F1 in F. exists (rev b), k. split; [exact Nb|]. split; [exact Hb'|]. right.
        destruct H1 as [H1|(c1 & r2 & H1 & N1)]; rewrite H1 in *.
        * left. exists n. split; [|reflexivity]. rewrite F. cbn [rev app]. rewrite <- repeat_cons. rewrite <- app_assoc. reflexivity.
        * right. exists (rev r2), c1, n. split; [exact N1|]. split; [reflexivity|]. rewrite F. rewrite <- !app_assoc. cbn [repeat].
          rewrite (repeat_cons n SLASH). rewrite <- !app_assoc. reflexivity.
      + exists (rev (c :: r')), k. split; [cbn [rev]; intros G; apply app_eq_nil in G; destruct G; discriminate|]. split; [rewrite <- in_rev; exact A|]. left. split; [exact F|reflexivity].
  Qed.

  (** A file has one directory. *)
  Lemma slash_end (a b : name) : forall k l, (a = [] \/ exists a' c, a = a' ++ [c] /\ c <> SLASH) -> (b = [] \/ exists b' c, b = b' ++ [c] /\ c <> SLASH) ->
    a ++ repeat SLASH k = b ++ repeat SLASH l -> a = b.
  Proof.
    intros k l Ha Hb E. apply (f_equal (@rev ascii)) in E. rewrite !rev_app_distr, !rev_repeat in E.
    rewrite <- (rev_involutive a), <- (rev_involutive b). f_equal.
    assert (Ha' : rev a = [] \/ exists c r, rev a = c :: r /\ c <> SLASH).
    { destruct Ha as [->|(a' & c & -> & N)]; [left; reflexivity|right]. rewrite rev_app_distr. cbn [rev app]. eauto. }
    assert (Hb' : rev b = [] \/ exists c r, rev b = c :: r /\ c <> SLASH).
    { destruct Hb as [->|(b' & c & -> & N)]; [left; reflexivity|right]. rewrite rev_app_distr. cbn [rev app]. eauto. }
    clear Ha Hb. revert E Ha' Hb'. generalize (rev a) (rev b). clear a b. intros a b. revert l.
    induction k as [|k IH]; intros [|l] E Ha Hb; cbn [repeat app] in E.
    - exact E.
    - subst a. destruct Ha as [Ha|(c & r & Ha & N)]; [discriminate|]. injection Ha as Ha _. congruence.
    - subst b. destruct Hb as [Hb|(c & r & Hb & N)]; [discriminate|]. injection Hb as Hb _. congruence.
    - injection E as E. exact (IH l E Ha Hb).
  Qed.
  Lemma nonslash_last (b : name) : b <> [] -> ~ In SLASH b -> exists b' c, b = b' ++ [c] /\ c <> SLASH.
  Proof.
    intros Hb N. destruct (exists_last Hb) as (b' & c & ->). exists b', c. split; [reflexivity|]. intros ->. apply N. apply in_or_app. right. left. reflexivity.
  Qed.
  Lemma last_slash (a b x y : name) : ~ In SLASH x -> ~ In SLASH y -> a ++ SLASH :: x = b ++ SLASH :: y -> a = b /\ x = y.
  Proof.
    revert b. induction a as [|c a IH]; intros [|d b] Hx Hy E; cbn [app] in E.
    - injection E as E. split; [reflexivity|exact E].
    - injection E as <- E. exfalso. apply Hx. rewrite E. apply in_or_app. right. left. reflexivity.
    - injection E as -> E. exfalso. apply Hy. rewrite <- E. apply in_or_app. right. left. reflexivity.
    - injection E as -> E. destruct (IH b Hx Hy E) as [-> ->]. split; reflexivity.
  Qed.
  Lemma in_dir_one f d1 d2 : in_dir f d1 -> in_dir f d2 -> d1 = d2.
  Proof.
    intros (b1 & k1 & N1 & S1 & H1) (b2 & k2 & N2 & S2 & H2).
    assert (G : forall (d b : name) k n1 (P : name), b <> [] -> ~ In SLASH b -> f = P ++ repeat SLASH (S n1) ++ b ++ repeat SLASH k ->
       f = (P ++ repeat SLASH n1 ++ SLASH :: b) ++ repeat SLASH k /\ d = d).
    { intros d b k n1 P _ _ ->. split; [|reflexivity]. replace (S n1) with (n1 + 1)%nat by lia. rewrite repeat_app. cbn [repeat]. rewrite <- !app_assoc. reflexivity. }
    assert (E : forall (X Y : name), (X = b1 \/ exists P, X = P ++ SLASH :: b1) -> (Y = b2 \/ exists P, Y = P ++ SLASH :: b2) ->
       X ++ repeat SLASH k1 = Y ++ repeat SLASH k2 -> X = Y).
    { intros X Y HX HY EE. destruct (nonslash_last b1 N1 S1) as (b1' & c1 & B1 & C1). destruct (nonslash_last b2 N2 S2) as (b2' & c2 & B2 & C2).
      apply (slash_end X Y k1 k2); [right|right|exact EE].
      - destruct HX as [->|(P & ->)]; [exists b1', c1; split; assumption|]. exists (P ++ SLASH :: b1'), c1. split; [|exact C1]. rewrite B1, <- app_assoc. reflexivity.
      - destruct HY as [->|(P & ->)]; [exists b2', c2; split; assumption|]. exists (P ++ SLASH :: b2'), c2. split; [|exact C2]. rewrite B2, <- app_assoc. reflexivity. }
    (* each case gives f = X ++ slashes *)
    assert (X1 : exists X, f = X ++ repeat SLASH k1 /\ ((X = b1 /\ d1 = ["."%char]) \/ (exists n, X = repeat SLASH n ++ SLASH :: b1 /\ d1 = [SLASH]) \/
       (exists d' c n, c <> SLASH /\ d1 = d' ++ [c] /\ X = d1 ++ repeat SLASH n ++ SLASH :: b1))).
    { destruct H1 as [[F D]|[(n & F & D)|(d' & c & n & C & D & F)]].
      - exists b1. split; [exact F|left; split; [reflexivity|exact D]].
      - exists (repeat SLASH n ++ SLASH :: b1). split; [exact (proj1 (G d1 b1 k1 n [] N1 S1 F))|]. right. left. exists n. split; [reflexivity|exact D].
      - exists (d1 ++ repeat SLASH n ++ SLASH :: b1). split; [exact (proj1 (G d1 b1 k1 n d1 N1 S1 F))|]. right. right. exists d', c, n. repeat split; assumption. }
    assert (X2 : exists X, f = X ++ repeat SLASH k2 /\ ((X = b2 /\ d2 = ["."%char]) \/ (exists n, X = repeat SLASH n ++ SLASH :: b2 /\ d2 = [SLASH]) \/
       (exists d' c n, c <> SLASH /\ d2 = d' ++ [c] /\ X = d2 ++ repeat SLASH n ++ SLASH :: b2))).
    { destruct H2 as [[F D]|[(n & F & D)|(d' & c & n & C & D & F)]].
      - exists b2. split; [exact F|left; split; [reflexivity|exact D]].
      - exists (repeat SLASH n ++ SLASH :: b2). split; [exact (proj1 (G d2 b2 k2 n [] N2 S2 F))|]. right. left. exists n. split; [reflexivity|exact D].
      - exists (d2 ++ repeat SLASH n ++ SLASH :: b2). split; [exact (proj1 (G d2 b2 k2 n d2 N2 S2 F))|]. right. right. exists d', c, n. repeat split; assumption. }
    destruct X1 as (X & F1 & C1). destruct X2 as (Y & F2 & C2). assert (XY : X = Y).
    { apply E; [| |rewrite <- F1, <- F2; reflexivity].
      - destruct C1 as [[-> _]|[(n & -> & _)|(d' & c & n & _ & _ & ->)]]; [left; reflexivity|right; eexists; reflexivity|right]. rewrite app_assoc. eexists; reflexivity.
      - destruct C2 as [[-> _]|[(n & -> & _)|(d' & c & n & _ & _ & ->)]]; [left; reflexivity|right; eexists; reflexivity|right]. rewrite app_assoc. eexists; reflexivity. }
    subst Y. clear E G F1 F2 H1 H2.
    destruct C1 as [[-> ->]|[(n & -> & ->)|(d' & c & n & C & D & ->)]]; destruct C2 as [[E ->]|[(n2 & E & ->)|(d2' & c2 & n2 & C2 & D2 & E)]]; try reflexivity.
    - exfalso. apply S1. rewrite E. apply in_or_app. right. left. reflexivity.
    - exfalso. apply S1. rewrite E. apply in_or_app. right. apply in_or_app. right. left. reflexivity.
    - exfalso. apply S2. rewrite <- E. apply in_or_app. right. left. reflexivity.
    - rewrite app_assoc in E. apply last_slash in E; [|assumption..]. destruct E as [E _]. exfalso.
      assert (I : In c2 (repeat SLASH n)). { rewrite E, D2. rewrite <- app_assoc. apply in_or_app. right. left. reflexivity. } apply repeat_spec in I. congruence.
    - exfalso. apply S2. rewrite <- E. apply in_or_app. right. apply in_or_app. right. left. reflexivity.
    - rewrite app_assoc in E. apply last_slash in E; [|assumption..]. destruct E as [E _]. exfalso.
      assert (I : In c (repeat SLASH n2)). { rewrite <- E, D. rewrite <- app_assoc. apply in_or_app. right. left. reflexivity. } apply repeat_spec in I. congruence.
    - rewrite !app_assoc in E. apply last_slash in E; [|assumption..]. destruct E as [E _]. eapply slash_end; [right|right|exact E]; [exists d', c|exists d2', c2]; split; assumption.
  Qed.

  Lemma image_spec f img path : named f -> (image_path f img = inl path <-> image_at f img path).
  Proof.
    intros Nf. unfold image_path, image_at. split.
    - destruct img as [|c r]; [discriminate|]. destruct (Ascii.eqb_spec c SLASH) as [->|N]; intros H.
      + left. exists r. split; congruence.
      + right. exists c, r, (dirname f). split; [reflexivity|]. split; [exact N|]. split; [apply dirname_in; exact Nf|]. apply (f_equal (fun x => match x with inl y => y | inr _ => [] end)) in H. symmetry. exact H.
    - intros [(r & -> & ->)|(c & r & d & -> & N & D & ->)].
      + rewrite Ascii.eqb_refl. reflexivity.
      + destruct (Ascii.eqb_spec c SLASH); [congruence|]. rewrite (in_dir_one f _ d (dirname_in f Nf) D). reflexivity.
  Qed.

  Lemma mode_spec e m : read_mode e = inl m <-> wants_mode e m.
  Proof.
    unfold read_mode, wants_mode. change (nm "trinary") with mode_trinary. change (nm "scale") with mode_scale. change (nm "raw") with mode_raw.
    destruct e as [| |s]; try (split; congruence).
    destruct (list_eq_dec ascii_dec s mode_trinary) as [->|N1]; [split; [intros H; left; split; congruence|intros [[_ ->]|[[H _]|[H _]]]; [reflexivity|discriminate|discriminate]]|].
    destruct (list_eq_dec ascii_dec s mode_scale) as [->|N2]; [split; [intros H; right; left; split; congruence|intros [[H _]|[[_ ->]|[H _]]]; [discriminate|reflexivity|discriminate]]|].
    destruct (list_eq_dec ascii_dec s mode_raw) as [->|N3]; [split; [intros H; right; right; split; congruence|intros [[H _]|[[H _]|[_ ->]]]; [discriminate|discriminate|reflexivity]]|].
    split; [discriminate|]. intros [[H _]|[[H _]|[H _]]]; congruence.
  Qed.
  Lemma required_spec {A} (e : entry A) a : required new_yaml e = inl a <-> e = Value a.
  Proof. destruct e; cbn [required]; split; congruence. Qed.
  Lemma rbind_inl {A B} (x : res A) (f : A -> res B) b : rbind x f = inl b <-> exists a, x = inl a /\ f a = inl b.
  Proof. destruct x as [a|e]; cbn [rbind]; split; [eauto|intros (a' & E & H); congruence|discriminate|intros (a' & E & _); discriminate]. Qed.

  Lemma read_spec f m : named f -> (read_file new_yaml open load frame f = inl m <-> describes f m).
  Proof.
    intros Nf. unfold read_file, describes. destruct (open f) as [| |d].
    1,2: split; [discriminate|intros (d & ? & ? & ? & ? & ? & ? & ? & ? & H & _); discriminate].
    split.
    - intros H. repeat (apply rbind_inl in H; destruct H as (? & ? & H)).
      match type of H with match ?l with _ => _ end = _ => destruct l as [g|] eqn:L; [|discriminate] end. injection H as <-.
      do 9 eexists. repeat split; try (eapply required_spec; eassumption); [eapply image_spec; eassumption|eapply mode_spec; eassumption|exact L|].
      cbn [o_z]. unfold wants_height, read_height. destruct (d_height d); reflexivity.
    - intros (d' & r & n & oc & fr & og & img & path & mode & E & H1 & H2 & H3 & H4 & H5 & H6 & H7 & H8 & H9 & H10 & H11).
      injection E as <-. rewrite H1, H2, H3, H4, H5, H6. apply mode_spec in H8. rewrite H8. apply image_spec in H7; [|exact Nf]. cbn [required rbind]. rewrite H7. cbn [rbind].
      rewrite H9. destruct m as [g z fm]; cbn [o_loaded o_z o_frame] in *. subst fm. unfold wants_height, read_height in *. destruct (d_height d); subst z; reflexivity.
  Qed.

  Lemma loop_spec fs : Forall named fs -> forall i maps,
    let r := tie_loop new_yaml open load frame i maps fs in
    (exists ms, Forall2 describes fs ms /\ r = (Spins, numbered i ms ++ [PubArray (maps ++ ms)])) \/
    (exists good bad rest ms, fs = good ++ bad :: rest /\ Forall2 describes good ms /\ (forall m, ~ describes bad m) /\ fst r <> Spins /\ snd r = numbered i ms).
  Proof.
    induction 1 as [|f fs Nf _ IH]; intros i maps; cbn [tie_loop].
    - left. exists []. split; [constructor|]. rewrite app_nil_r. reflexivity.
    - destruct (read_file new_yaml open load frame f) as [m|e] eqn:E.
      + apply read_spec in E; [|exact Nf]. specialize (IH (S i) (maps ++ [m])). cbv zeta in IH.
        destruct (tie_loop new_yaml open load frame (S i) (maps ++ [m]) fs) as [e t].
        destruct IH as [(ms & H & R)|(good & bad & rest & ms & -> & H & B & NS & T)].
        * left. exists (m :: ms). split; [constructor; assumption|]. injection R as -> ->. cbn [numbered app]. rewrite <- app_assoc. reflexivity.
        * right. exists (f :: good), bad, rest, (m :: ms). cbn [fst snd] in *. repeat split; [constructor; assumption|exact B|exact NS|]. cbn [numbered]. rewrite T. reflexivity.
      + right. exists [], f, fs, []. repeat split; [constructor| | ].
        * intros m D. apply read_spec in D; [|exact Nf]. congruence.
        * cbn [fst]. clear - E. intros ->. revert E. unfold read_file. destruct (open f) as [| |d]; try discriminate.
          assert (Q : forall A (x : entry A), required new_yaml x <> inr Spins) by (intros A x; destruct x; cbn [required]; destruct new_yaml; discriminate).
          assert (QM : read_mode (d_mode d) <> inr Spins) by (unfold read_mode; destruct (d_mode d); repeat destruct (list_eq_dec ascii_dec _ _); discriminate).
          repeat match goal with |- rbind ?x _ = _ -> _ => let H := fresh in assert (H : x <> inr Spins); [first [apply Q|exact QM|idtac]|destruct x as [?|?]; cbn [rbind]; [clear H|congruence]] end.
          -- match goal with |- image_path _ ?img <> _ => unfold image_path; destruct img; discriminate end.
          -- match goal with |- match ?l with _ => _ end = _ -> _ => destruct l; discriminate end.
  Qed.

  (** Every listed file describes a map: these maps are published, each under its number and all of them in the order of the list, and nothing else. *)
  Theorem C76_all_maps_are_published objs : Forall named (split objs ",") ->
    forall t, tie_maps new_yaml open load frame objs = (Spins, t) <->
    exists ms, Forall2 describes (split objs ",") ms /\ t = numbered 0 ms ++ [PubArray ms].
  Proof.
    intros N t. unfold tie_maps. destruct (loop_spec _ N 0%nat []) as [(ms & H & R)|(good & bad & rest & ms & E & H & B & NS & T)]; cbv zeta in *.
    - rewrite R. cbn [app]. split; [intros G; injection G as <-; eauto|]. intros (ms' & H' & ->). f_equal.
      assert (U : ms' = ms); [|rewrite U; reflexivity].
      clear - H H' N new_yaml. revert ms ms' H H'. induction N as [|f fs Nf _ IH]; intros ms ms' H H'; inversion H; inversion H'; subst; [reflexivity|].
      f_equal; [|apply IH; assumption].
      match goal with H1 : describes f ?a, H2 : describes f ?b |- ?b = ?a => apply read_spec in H1; [|exact Nf]; apply read_spec in H2; [|exact Nf]; congruence end.
    - destruct (tie_loop new_yaml open load frame 0 [] (split objs ",")) as [e t']. cbn [fst snd] in *. split; [intros G; injection G as -> _; congruence|].
      intros (ms' & H' & _). exfalso. rewrite E in H'. apply Forall2_app_inv_l in H'. destruct H' as (l1 & l2 & _ & H2 & _). inversion H2; subst. eapply B; eassumption.
  Qed.

  (** Otherwise the node ends: the maps before the first bad file have been published one by one, and no array. *)
  Theorem C76_a_bad_file_ends_the_node objs : Forall named (split objs ",") -> fst (tie_maps new_yaml open load frame objs) <> Spins ->
    exists good bad rest ms, split objs "," = good ++ bad :: rest /\ Forall2 describes good ms /\ (forall m, ~ describes bad m) /\
      snd (tie_maps new_yaml open load frame objs) = numbered 0 ms.
  Proof.
    intros N NS. unfold tie_maps in *. destruct (loop_spec _ N 0%nat []) as [(ms & H & R)|(good & bad & rest & ms & E & H & B & _ & T)]; cbv zeta in *.
    - rewrite R in NS. cbn [fst] in NS. congruence.
    - exists good, bad, rest, ms. repeat split; assumption.
  Qed.

  (** A subscriber of the array never sees a part of the maps. *)
  Theorem C76_array_is_complete objs l : Forall named (split objs ",") -> In (PubArray l) (snd (tie_maps new_yaml open load frame objs)) ->
    Forall2 describes (split objs ",") l.
  Proof.
    intros N I. assert (Q : forall ms i, ~ In (PubArray l) (numbered i ms)).
    { induction ms as [|m ms IH]; intros i; [intros []|]. intros [H|H]; [discriminate|exact (IH _ H)]. }
    unfold tie_maps in I. destruct (loop_spec _ N 0%nat []) as [(ms & H & R)|(good & bad & rest & ms & E & H & B & _ & T)]; cbv zeta in *.
    - rewrite R in I. cbn [snd] in I. apply in_app_or in I. destruct I as [I|[I|[]]]; [destruct (Q _ _ I)|]. injection I as <-. exact H.
    - rewrite T in I. destruct (Q _ _ I).
  Qed.

  (** A file without the entry "resolution" does not lead to the orderly shutdown with a message that the code has for it: the exception is not caught. *)
  Theorem C76_missing_entry_is_reported_refuted f fs d : open f = Yaml d -> d_resolution d = Absent ->
    forall i maps, fst (tie_loop new_yaml open load frame i maps (f :: fs)) = Terminated.
  Proof. intros O D i maps. cbn [tie_loop]. unfold read_file. rewrite O, D. reflexivity. Qed.
  Theorem C76_unreadable_entry_is_reported_refuted f fs d : new_yaml = true -> open f = Yaml d -> d_resolution d = Unreadable ->
    forall i maps, fst (tie_loop new_yaml open load frame i maps (f :: fs)) = Terminated.
  Proof. intros Y O D i maps. cbn [tie_loop]. unfold read_file. rewrite O, D, Y. reflexivity. Qed.
  Theorem C76_missing_file_is_reported f fs : open f = NoFile -> forall i maps, fst (tie_loop new_yaml open load frame i maps (f :: fs)) = Stopped.
  Proof. intros O i maps. cbn [tie_loop]. unfold read_file. rewrite O. reflexivity. Qed.
End Props.

(** ** The hypotheses are met *)
Definition demo_doc (img : name) (h : entry R) : doc :=
  Doc (Value (5 / 100)%R) (Value 0%Z) (Value (65 / 100)%R) (Value (196 / 1000)%R) Absent (Value (0, 0, 0)%R) h (Value img).
Definition demo_open (f : name) : content :=
  if list_eq_dec ascii_dec f (nm "/maps//f0.yaml") then Yaml (demo_doc (nm "f0.pgm") Absent)
  else if list_eq_dec ascii_dec f (nm "f1.yaml") then Yaml (demo_doc (nm "/img/f1.pgm") (Value 3%R))
  else NoFile.
Definition demo_load (p : name) (r : R) (n : Z) (oc fr : R) (og : R * R * R) (m : mapmode) : option Z :=
  if list_eq_dec ascii_dec p (nm "/maps/f0.pgm") then Some 10%Z else if list_eq_dec ascii_dec p (nm "/img/f1.pgm") then Some 11%Z else None.

Example demo_named : Forall named (split (nm "/maps//f0.yaml,f1.yaml,") ",").
Proof. repeat constructor; exists "f"%char; (split; [cbn; tauto|discriminate]). Qed.
Example demo_tied : tie_maps true demo_open demo_load (nm "map") (nm "/maps//f0.yaml,f1.yaml,") =
  (Spins, [PubMap 0 (OMap 10 0 (nm "map")); PubMap 1 (OMap 11 3 (nm "map")); PubArray [OMap 10 0 (nm "map"); OMap 11 3 (nm "map")]]).
Proof. reflexivity. Qed.
(** One map of two is out before the node stops. *)
Example demo_partly : tie_maps true demo_open demo_load (nm "map") (nm "f1.yaml,f2.yaml") = (Stopped, [PubMap 0 (OMap 11 3 (nm "map"))]).
Proof. reflexivity. Qed.

Print Assumptions C76_all_maps_are_published.
Print Assumptions C76_a_bad_file_ends_the_node.
Print Assumptions C76_array_is_complete.
Print Assumptions C76_missing_entry_is_reported_refuted.
Print Assumptions C76_unreadable_entry_is_reported_refuted.
Print Assumptions C76_missing_file_is_reported.
