(** What is expected of trees made by L-systems and of forests, without the model of the code but its elements. *)
From Coq Require Import Reals.
From Verif Require Import Base Bytes GeoModel RingModel MeshBuildModel MeshBuildSpec QuatModel QuatSpec GenModel GenSpec LsysModel PlaneSpec RowSpec TreeModel.
Local Open Scope nat_scope.

(** Texts put together with a separator. *)
Fixpoint joined (c : N) (l : list bytes) : bytes :=
  match l with
  | [] => []
  | p :: l' => match l' with [] => p | _ => p ++ c :: joined c l' end
  end.
(** The parts of a text between separators. *)
Definition partsOf (c : N) (s : bytes) (l : list bytes) : Prop :=
  l <> [] /\ joined c l = s /\ Forall (fun p => ~ In c p) l.

(** The number written by decimal digits. *)
Definition isDigit (b : N) : Prop := (48 <= b <= 57)%N.
Definition decimal (ds : bytes) : N := fold_left (fun a b => (10 * a + (b - 48))%N) ds 0%N.
(** A number below 2^16 with an optional sign; a negative one counts from 2^16 down. *)
Definition shortText (bs : bytes) (v : N) : Prop :=
  exists sign ds, bs = sign ++ ds /\ ds <> [] /\ Forall isDigit ds /\ (decimal ds < 65536)%N /\ (v < 65536)%N /\
    ((sign = [] \/ sign = [43%N]) /\ v = decimal ds \/ sign = [45%N] /\ ((v + decimal ds) mod 65536 = 0)%N).

Section Looks.
  Context {T : Type} (n : nums T) (te : treeEnv T).
  (** The appearance with a color, a texture index, a type of texture and a scale given as texts. *)
  Definition lookFrom (color index type scale : bytes) (look : lookOptions T) : Prop :=
    exists i, shortText index i /\ teGradient te color = Ok (lgradient look) /\ lnoise look = nzero n /\
      ltexture look = Z.of_N i /\ teTexture te i type = Ok (lregion look) /\ teDouble te scale = Some (lscale look).
  (** Every color has an appearance with the entries of the other lists in the same place. *)
  Definition looksFrom (colors indices types scales : list bytes) (looks : list (lookOptions T)) : Prop :=
    length looks = length colors /\
    forall i look, nth_error looks i = Some look ->
      exists color index type scale,
        nth_error colors i = Some color /\ nth_error indices i = Some index /\ nth_error types i = Some type /\
        nth_error scales i = Some scale /\ lookFrom color index type scale look.
End Looks.

Section Parts.
  Context {T : Type} (n : nums T) (k : trig T) (env : builderEnv T).
  (** A drawing as it is put into a mesh: its triangles in one appearance. *)
  Definition part : Type := lookOptions T * list (triangle T).
  (** A triangle with its color and texture coordinates. *)
  Definition faceIn (look : lookOptions T) (t : triangle T) :=
    let '(a, b, c) := t in
    let color := lgradient look (ePerlin env (v3x a) (v3z a) (lnoise look)) in
    face3 (place a color (mkV2 (nzero n) (nzero n))) (place b color (mkV2 (kone k) (nzero n)))
          (place c color (mkV2 (kone k) (kone k))).
  Definition facesIn (p : part) := map (faceIn (fst p)) (snd p).
  (** The number of corners. *)
  Definition cornersIn (ps : list part) : nat := 3 * length (flat_map snd ps).
  (** The appearance of a number: they are used in turn again and again. *)
  Definition inTurnOf {A} (l : list A) (i : nat) (a : A) : Prop := exists q r, i = q * length l + r /\ nth_error l r = Some a.
End Parts.

Local Open Scope R_scope.
(** The triangle moved by a function of points. *)
Definition mapTri {P Q} (f : P -> Q) (t : P * P * P) : Q * Q * Q := let '(a, b, c) := t in (f a, f b, f c).
(** The point with the coordinates of [v] along right hand, direction and the vector perpendicular to both. *)
Definition inFrame (o direction right v : vec3 R) : vec3 R :=
  let side := cross3 right direction in
  mkV3 (v3x o + v3x v * v3x right + v3y v * v3x direction + v3z v * v3x side)
       (v3y o + v3x v * v3y right + v3y v * v3y direction + v3z v * v3y side)
       (v3z o + v3x v * v3z right + v3y v * v3z direction + v3z v * v3z side).
(** Something drawn at a state with a length and a width. *)
Definition sizedState (s : tstate R) : Prop := upright s /\ 0 < twidth s /\ 0 < tlength s.
(** The middle of a drawing. *)
Definition middleAt (d : drawing R) : vec3 R :=
  match dshape d with
  | Sphere => tpos (dstate d)
  | _ => comb3 1 (tpos (dstate d)) (tlength (dstate d) / 2) (tdir (dstate d)) 0 (tpos (dstate d))
  end.
(** How many triangles a drawing has. *)
Definition trianglesOf (s : shape) : nat := match s with Cylinder => 28 | Cone => 21 | Sphere => 80 end.
(** Rules which keep direction and right hand perpendicular. *)
Definition noPitch (r : rule) : Prop := match r with PitchUp | PitchDown | RollLeft | RollRight => False | _ => True end.
(** Where a point of a tree at [p] on the height [h] is, if the tree is at [p'] on the height [h']: as many metres away. *)
Definition elsewhere (p : point R) (h : R) (p' : point R) (h' : R) (v : vec3 R) : vec3 R :=
  mkV3 (plon p' + (v3x v - plon p) * cos (PI * plat p / 180) / cos (PI * plat p' / 180)) (v3y v - h + h') (plat p' + (v3z v - plat p)).

(** Every [f]th element of a list, beginning with the first. *)
Definition every {A} (f : nat) (l : list A) : list A :=
  map snd (filter (fun p => (fst p mod f =? 0)%nat) (combine (seq 0 (length l)) l)).
(** A list cut into pieces of [c] elements, the last one of at most [c]. *)
Definition cutInto {A} (c : nat) (l : list A) (ps : list (list A)) : Prop :=
  concat ps = l /\
  forall i p, nth_error ps i = Some p -> p <> [] /\ (length p <= c)%nat /\ (S i < length ps -> length p = c)%nat.
(** The point of the ground in the middle of a triangle. *)
Definition centroid (t : tri3) : point R :=
  let '(a, b, c) := t in mkPoint ((v3z a + v3z b + v3z c) / 3) ((v3x a + v3x b + v3x c) / 3).
(** To the left of the line from [a] to [b], seen from above (x to the east, z to the north). *)
Definition leftSide (a b : vec3 R) (p : point R) : R :=
  (v3x b - v3x a) * (plat p - v3z a) - (v3z b - v3z a) * (plon p - v3x a).
(** The whole part of a number which is at least 1, and 1 for smaller ones. *)
Definition wholeOf (v : R) (f : nat) : Prop := (1 <= f)%nat /\ (v < 1 /\ f = 1%nat \/ INR f <= v < INR f + 1).
