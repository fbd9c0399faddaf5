(** Property C50: the compatibility gate. *)
From Coq Require Import ZifyBool.
From Verif Require Import Common Compat.
Local Open Scope Z_scope.

(** A node starts exactly for levels between the supported (0) and the current (1)
    one; not setting the level counts as 0. *)
Theorem C50_node_starts_iff_level_supported {T} (param : option Z) (topics : list (T * T)) :
  start_node param topics <> None <-> (param = None \/ exists l, param = Some l /\ 0 <= l <= 1).
Proof.
  unfold start_node, checkCompatMode, getCompat, current_level, supported_level, default_level, supported_level.
  destruct param as [l|]; simpl.
  - destruct (l <? 0) eqn:E1; [split; [congruence|intros [H|(l' & H & ?)]; [discriminate|injection H as <-; lia]]|].
    destruct (1 <? l) eqn:E2; [split; [congruence|intros [H|(l' & H & ?)]; [discriminate|injection H as <-; lia]]|].
    split; [intros _; right; exists l; split; [reflexivity|lia]|].
    intros _. destruct (negb (l =? 1)); discriminate.
  - split; [auto|discriminate].
Qed.

(** A started node uses either all new names (level 1) or all old names (level 0). *)
Theorem C50_topic_names_are_uniform {T} (param : option Z) (topics : list (T * T)) names :
  start_node param topics = Some names ->
  (param = Some 1 /\ names = map fst topics) \/ ((param = None \/ param = Some 0) /\ names = map snd topics).
Proof.
  intros E. assert (HS : start_node param topics <> None) by congruence.
  apply C50_node_starts_iff_level_supported in HS.
  assert (HL : getCompat param = 0 \/ getCompat param = 1).
  { destruct HS as [->|(l & -> & Hl)]; [left; reflexivity|simpl; lia]. }
  unfold start_node in E. destruct (checkCompatMode param); [|discriminate]. injection E as <-.
  destruct HL as [HL|HL].
  - right. split; [destruct param as [l|]; [right; simpl in HL; congruence|left; reflexivity]|].
    apply map_ext. intros [n o]. unfold choose. rewrite HL. reflexivity.
  - left. split; [destruct param as [l|]; [simpl in HL; congruence|discriminate]|].
    apply map_ext. intros [n o]. unfold choose. rewrite HL. reflexivity.
Qed.

(** The deprecation error is logged exactly by the nodes that start with old names. *)
Theorem C50_deprecation_logged_iff_old (param : option Z) :
  checkCompatMode param = Some true <-> (param = None \/ param = Some 0).
Proof.
  unfold checkCompatMode, getCompat, current_level, supported_level, default_level, supported_level.
  destruct param as [l|]; simpl; [|tauto].
  destruct (l <? 0) eqn:E1; [split; [discriminate|intros [H|H]; [discriminate|injection H as ->; discriminate]]|].
  destruct (1 <? l) eqn:E2; [split; [discriminate|intros [H|H]; [discriminate|injection H as ->; discriminate]]|].
  destruct (l =? 1) eqn:E3; cbn [negb].
  - split; [discriminate|intros [H|H]; [discriminate|injection H as ->; discriminate]].
  - split; [intros _; right; f_equal; lia|reflexivity].
Qed.

Example C50_ex_old : start_node None [(1, 2); (3, 4)] = Some [2; 4]. Proof. reflexivity. Qed.
Example C50_ex_new : start_node (Some 1) [(1, 2); (3, 4)] = Some [1; 3]. Proof. reflexivity. Qed.
Example C50_ex_future : start_node (Some 2) [(1, 2); (3, 4)] = None. Proof. reflexivity. Qed.
Print Assumptions C50_node_starts_iff_level_supported.
Print Assumptions C50_deprecation_logged_iff_old.
Print Assumptions C50_topic_names_are_uniform.
