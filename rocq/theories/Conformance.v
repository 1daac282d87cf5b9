(** * The model against the project's own tests

    test/src/auto_tests.cpp runs single layers on literal inputs and checks literal outputs.
    The same runs of the model give the values the tests expect.  (These are tests of the
    model, not proofs of properties.)  Numbers are integers; where the test uses decimals the
    incoming delta is scaled by 100, and so is the result, which is linear in it. *)
From Verif Require Import Mem Scalar Lique Functions Layer.

(** [Core::Tensor x(d, h, w); x.copy(l)] *)
Definition test_tensor (d h w : Z) (l : list Z) : M Z tensor :=
  let* t := ten_new d h w in tb_copy_list t l ;;; ret t.
(** the elements [x(i, j, k)] in order *)
Definition test_values (t : tensor) (d h w : Z) : M Z (list Z) :=
  mfold 0 d (fun i l => mfold 0 h (fun j l => mfold 0 w (fun k l =>
    let* x := ten_get t i j k in ret (l ++ [x])) l) l) [].
Definition result {A} (k : M Z A) : option A := match k [] with Ok (a, _) => Some a | UB _ => None end.

(** auto_tests.cpp 8-26 *)
Example test_matrix :
  result (let* x := mat_new 3 4 in
          tb_copy_list x [0; 1; 2; 3; 4; 5; 6; 7; 8; 9; 10; 11] ;;;
          mfold 0 3 (fun i l => mfold 0 4 (fun j l => let* v := mat_get x i j in ret (l ++ [v])) l) []) =
  Some [0; 1; 2; 3; 4; 5; 6; 7; 8; 9; 10; 11].
Proof. vm_compute. reflexivity. Qed.
(** auto_tests.cpp 28-48 *)
Example test_tensor3 :
  result (let* x := test_tensor 2 2 3 [0; 1; 2; 3; 4; 5; 6; 7; 8; 9; 10; 11] in test_values x 2 2 3) =
  Some [0; 1; 2; 3; 4; 5; 6; 7; 8; 9; 10; 11].
Proof. vm_compute. reflexivity. Qed.
(** auto_tests.cpp 68-117 *)
Definition run_fc : M Z (list Z * list Z) :=
  let* L := fc_new_set (shape3 1 1 8) (shape3 1 1 4) (Some (Functions.Scalar ReLU)) in
  tb_copy_list (f_W L)
    [1; 1; 1; 1;  2; 0; 1; 2;  3; 0; 1; 2;  4; 1; 1; 1;
     -1; -1; -3; 2;  -2; 2; -4; 2;  -3; -3; -5; -3;  -4; 4; -6; -8] ;;;
  let* input := test_tensor 1 1 8 [1; 2; -3; 4; 0; -7; 2; -4] in
  l_forward (LFC L) input ;;;
  let* v := test_values (l_value (LFC L)) 1 1 4 in
  let* idelta := test_tensor 1 1 4 [-50; 10; -25; 70] in
  l_backward (LFC L) input idelta true ;;;
  let* d := l_delta (LFC L) in
  let* d := test_values d 1 1 8 in ret (v, d).
Example test_fully_connected : result run_fc =
  Some ([36; 0; 46; 15], [-5; 15; -35; -155; 265; 340; 65; -210]).
Proof. vm_compute. reflexivity. Qed.
(** auto_tests.cpp 122-194 *)
Definition run_xconv : M Z (list Z) :=
  let* L := xconv_new (shape3 3 5 5) 2 3 3 1 2 2 in
  let* W0 := nth_of (xc_Ws L) 0 in
  let* W1 := nth_of (xc_Ws L) 1 in
  tb_copy_list W0 [-1; 1; 1; -1; 1; 1; 0; 0; 1;  0; -1; 1; -1; 0; -1; 1; 0; 0;  1; -1; 0; -1; 0; -1; 0; 1; -1] ;;;
  tb_copy_list W1 [0; 0; -1; 1; 0; 0; 0; -1; 0;  1; -1; 0; -1; 1; 0; -1; 1; 1;  1; 0; 1; 1; -1; 1; -1; 0; 0] ;;;
  tb_copy_list (xc_B L) [1; 0] ;;;
  let* input := test_tensor 3 5 5
    [1; 2; 0; 1; 0;  2; 0; 0; 0; 1;  1; 2; 2; 0; 2;  2; 2; 2; 0; 1;  2; 0; 1; 0; 1;
     1; 2; 2; 1; 2;  0; 2; 2; 0; 2;  1; 2; 2; 1; 1;  2; 2; 0; 1; 0;  2; 2; 1; 0; 0;
     0; 2; 0; 1; 1;  2; 0; 2; 1; 1;  2; 0; 1; 2; 1;  0; 1; 0; 1; 2;  1; 0; 1; 2; 1] in
  l_forward (LXConv L) input ;;;
  test_values (l_value (LXConv L)) 2 3 3.
Example test_convolution_raw : result run_xconv =
  Some [2; -3; -1; 5; -7; 2; 5; 0; 0;  3; 5; 2; 1; 0; -3; -2; 4; 3].
Proof. vm_compute. reflexivity. Qed.
(** auto_tests.cpp 196-238 *)
Definition run_conv : M Z (list Z * list Z) :=
  let* L := conv_new (shape3 1 4 4) 1 3 3 0 1 1 in
  let* W0 := nth_of (c_Ws L) 0 in
  tb_copy_list W0 [1; 4; 1; 1; 4; 3; 3; 3; 1] ;;;
  tb_copy_list (c_B L) [0] ;;;
  let* input := test_tensor 1 4 4 [4; 5; 8; 7; 1; 8; 8; 8; 3; 6; 6; 4; 6; 5; 7; 8] in
  l_forward (LConv L) input ;;;
  let* v := test_values (l_value (LConv L)) 1 2 2 in
  let* idelta := test_tensor 1 2 2 [2; 1; 4; 4] in
  l_backward (LConv L) input idelta true ;;;
  let* d := l_delta (LConv L) in
  let* d := test_values d 1 4 4 in ret (v, d).
Example test_convolution : result run_conv =
  Some ([122; 148; 126; 134], [2; 9; 6; 1; 6; 29; 30; 7; 10; 29; 33; 13; 12; 24; 16; 4]).
Proof. vm_compute. reflexivity. Qed.
(** auto_tests.cpp 242-263 *)
Definition run_pool : M Z (list Z) :=
  let* L := xpool_new 1 4 4 2 2 (Some (Functions.Scalar Identity)) in
  let* input := test_tensor 1 4 4 [6; 6; 6; 6; 4; 5; 5; 4; 2; 4; 4; 2; 2; 4; 4; 2] in
  l_forward (LXPool L) input ;;;
  test_values (l_value (LXPool L)) 1 2 2.
Example test_max_pooling : result run_pool = Some [6; 6; 4; 4].
Proof. vm_compute. reflexivity. Qed.
