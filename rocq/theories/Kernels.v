(** Model of the kernel point generators and of the random rotation
    (pylib/pc/layers/utils.py:52-236).

    Real numbers stand for floats. The random angles are arguments. *)
From Coq Require Import List Arith Reals Bool.
From Verif Require Import Tensor Pdf RTensor.
Import ListNotations.
Local Open Scope R_scope.

(** [tf.stack((r0, r1, r2), axis=1)] of three rows: the rows become columns. *)
Definition stack_columns (rows : list (list R)) : ten :=
  ttab [3; 3]%nat (fun idx => match idx with [i; j] => nth i (nth j rows []) 0 | _ => 0 end).

(** utils.py:63-74: the three rotations and their product. *)
Definition rot_x (a : R) : ten := stack_columns [[1; 0; 0]; [0; cos a; - sin a]; [0; sin a; cos a]].
Definition rot_y (a : R) : ten := stack_columns [[cos a; 0; sin a]; [0; 1; 0]; [- sin a; 0; cos a]].
Definition rot_z (a : R) : ten := stack_columns [[cos a; - sin a; 0]; [sin a; cos a; 0]; [0; 0; 1]].
(** utils.py:52-76 random_rotation, with the angles drawn. *)
Definition random_rotation (ax ay az : R) (points : ten) : result ten :=
  xy <- tmatmul (rot_x ax) (rot_y ay) ;;
  m <- tmatmul xy (rot_z az) ;;
  tmatmul points m.

(** [np.array(points) * scale] with the z-shift added to the last column. *)
Definition scale_shift (scale z_shift : R) (points : list (list R)) : list (list R) :=
  map (fun p => [nth 0 p 0 * scale; nth 1 p 0 * scale; nth 2 p 0 * scale + z_shift]) points.
(** utils.py:79-100 _hexagon. *)
Definition hexagon (scale z_shift : R) : list (list R) :=
  let phi := sqrt 3 / 2 in
  scale_shift scale z_shift
    [[0; 1; 0]; [0; -1; 0]; [1/2; phi; 0]; [1/2; - phi; 0]; [- (1/2); phi; 0]; [1/2; - phi; 0]].
(** utils.py:103-126 _pentagon. *)
Definition pentagon (scale z_shift : R) : list (list R) :=
  let c1 := (sqrt 5 - 1) / 4 in
  let c2 := (sqrt 5 + 1) / 4 in
  let s1 := sqrt (10 + 2 * sqrt 5) / 4 in
  let s2 := sqrt (10 - 2 * sqrt 5) / 4 in
  scale_shift scale z_shift [[1; 0; 0]; [c1; s1; 0]; [c1; - s1; 0]; [- c2; s2; 0]; [- c2; - s2; 0]].

(** utils.py:173-213, the points before the rotation. For 13 points,
    [tf.sqrt(5)] is called with an integer, for which TensorFlow has no kernel
    (InvalidArgumentError); [icosahedron] is the table that follows. *)
Definition icosahedron : list (list R) :=
  let phi := (1 + sqrt 5) / 2 in
  [[0; 0; 0]; [0; 1; phi]; [0; 1; - phi]; [0; -1; phi]; [0; -1; - phi];
   [1; phi; 0]; [1; - phi; 0]; [-1; phi; 0]; [-1; - phi; 0];
   [phi; 0; 1]; [- phi; 0; 1]; [phi; 0; -1]; [- phi; 0; -1]].
Definition fixed_kernel_points (num : nat) : result (list (list R)) :=
  match num with
  | 5%nat => Ok [[0; 0; 0]; [0; 0; 1]; [sqrt (8/9); 0; - (1/3)]; [- sqrt (2/9); sqrt (2/3); - (1/3)];
             [- sqrt (2/9); - sqrt (2/3); - (1/3)]]
  | 7%nat => Ok [[0; 0; 0]; [1; 0; 0]; [-1; 0; 0]; [0; 1; 0]; [0; -1; 0]; [0; 0; 1]; [0; 0; -1]]
  | 13%nat => Err InvalidArgument
  | 15%nat => Ok ([[0; 0; 0]; [0; 0; 1]; [0; 0; -1]] ++ hexagon (1/2) (sqrt 3 / 2) ++
             map (fun p => [nth 1 p 0; nth 0 p 0; nth 2 p 0]) (hexagon (- (1/2)) (sqrt 3 / 2)))
  | 18%nat => Ok ([[0; 0; 0]; [0; 0; 1]; [0; 0; -1]] ++ pentagon (1 / sqrt 2) (1/2) ++
             map (map Ropp) (pentagon 1 0) ++ pentagon (- (1 / sqrt 2)) (1/2))
  | _ => Err ValueError
  end.
(** utils.py:150-220 spherical_kernel_points; [angles] are the angles drawn if
    [rotate]. *)
Definition spherical_kernel_points (num : nat) (angles : option (R * R * R)) : result ten :=
  p <- fixed_kernel_points num ;;
  let t := of_rows 3 p in
  match angles with
  | None => Ok t
  | Some (ax, ay, az) => random_rotation ax ay az t
  end.

(** [np.linspace(0, 1, n)]. *)
Definition linspace01 (n : nat) : list R :=
  map (fun i => if (n =? 1)%nat then 0 else INR i / INR (n - 1)) (seq 0 n).
(** utils.py:223-236 cube_kernel_points: [np.meshgrid] uses the order y, x, z of
    the axes. *)
Definition cube_kernel_points (n : nat) : list (list R) :=
  let x := linspace01 n in
  flat_map (fun b => flat_map (fun a => map (fun c => [a; b; c]) x) x) x.
