(** Property C08: where image names of a descriptor point. *)
From Coq Require Import Ascii String List Bool.
From Verif Require Import Base_Prelude Base_Str Model_Path Model_Parser Spec_Path Proofs_Path.
Import ListNotations.

(** C08: a plain image name is found by walking from the descriptor's directory
    (or from the root, if it is absolute) through the names it lists, whichever
    separator is used. *)
Theorem C08_image_location_partial cwd dir n :
  plain_name n ->
  (absolute n -> resolve cwd (image_path dir n) = walk [] (names_of n)) /\
  (~ absolute n -> resolve cwd (image_path dir n) = walk (resolve cwd dir) (names_of n)).
Proof. exact (image_path_location_cases cwd dir n). Qed.
Print Assumptions C08_image_location_partial.

Example C08_plain_windows : plain_name (lit "images\set1\a.png").
Proof. right. left. vm_compute. intuition discriminate. Qed.
Example C08_plain_posix : plain_name (lit "../images//./a.png").
Proof. left. vm_compute. intuition discriminate. Qed.
Example C08_example :
  resolve [] (image_path (lit "/data/set") (lit "..\images\a.png")) =
  [lit "a.png"; lit "images"; lit "data"].
Proof. vm_compute. reflexivity. Qed.
Example C08_example_abs :
  resolve [] (image_path (lit "/data/set") (lit "/tmp/x/../a.png")) = [lit "a.png"; lit "tmp"].
Proof. vm_compute. reflexivity. Qed.

(** The same for every name is false: a backslash directly before a slash makes
    the rest absolute... *)
Theorem C08_every_name_refuted :
  exists cwd dir n, ~ absolute n /\
  resolve cwd (image_path dir n) <> walk (resolve cwd dir) (names_of n).
Proof. exact bs_slash_escapes. Qed.
Print Assumptions C08_every_name_refuted.

(** ... and ".." after a name that contains a backslash removes too much. *)
Theorem C08_mixed_dotdot_refuted :
  exists cwd dir n, ~ absolute n /\ (forall u v, n <> u ++ "\"%char :: "/"%char :: v) /\
  resolve cwd (image_path dir n) <> walk (resolve cwd dir) (names_of n).
Proof. exact mixed_dotdot_wrong. Qed.
Print Assumptions C08_mixed_dotdot_refuted.
