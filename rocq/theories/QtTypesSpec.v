(** Specification for fields of Qt types. *)

From Coq Require Import ZArith List Bool.
From Verif Require Import Base Values WireSpec MessageSpec QtTypesModel.
Import ListNotations.
Open Scope Z_scope.

(** Bit patterns of floating point numbers of [w] bits that are the same number, or NaN with the same
    bits: only the sign of zero may differ. *)
Definition same_float (w a b : Z) : Prop :=
  a = b \/ (a mod 2 ^ (w - 1) = 0 /\ b mod 2 ^ (w - 1) = 0).

Section Same.
  Context {Url Image : Type}.
  Local Notation qtval := (qtval Url Image).

  (** The same value of a Qt type: equal, up to the sign of zeros. *)
  Inductive same_qt : qtval -> qtval -> Prop :=
  | same_equal v : same_qt v v
  | same_sizef w h w' h' : same_float 64 w w' -> same_float 64 h h' ->
      same_qt (QSizeF _ _ w h) (QSizeF _ _ w' h')
  | same_pointf x y x' y' : same_float 64 x x' -> same_float 64 y y' ->
      same_qt (QPointF _ _ x y) (QPointF _ _ x' y')
  | same_rectf x y w h x' y' w' h' : same_float 64 x x' -> same_float 64 y y' ->
      same_float 64 w w' -> same_float 64 h h' ->
      same_qt (QRectF _ _ x y w h) (QRectF _ _ x' y' w' h')
  | same_polygonf l l' :
      Forall2 (fun p q => same_float 64 (fst p) (fst q) /\ same_float 64 (snd p) (snd q)) l l' ->
      same_qt (QPolygonF _ _ l) (QPolygonF _ _ l')
  | same_matrix l l' : Forall2 (same_float 32) l l' -> same_qt (QMatrix4x4 _ _ l) (QMatrix4x4 _ _ l')
  | same_vector2 x y x' y' : same_float 32 x x' -> same_float 32 y y' ->
      same_qt (QVector2D _ _ x y) (QVector2D _ _ x' y')
  | same_vector3 x y z x' y' z' : same_float 32 x x' -> same_float 32 y y' -> same_float 32 z z' ->
      same_qt (QVector3D _ _ x y z) (QVector3D _ _ x' y' z')
  | same_vector4 x y z w x' y' z' w' : same_float 32 x x' -> same_float 32 y y' -> same_float 32 z z' ->
      same_float 32 w w' -> same_qt (QVector4D _ _ x y z w) (QVector4D _ _ x' y' z' w')
  | same_transform a b c d e f g h i a' b' c' d' e' f' g' h' i' :
      same_float 64 a a' -> same_float 64 b b' -> same_float 64 c c' ->
      same_float 64 d d' -> same_float 64 e e' -> same_float 64 f f' ->
      same_float 64 g g' -> same_float 64 h h' -> same_float 64 i i' ->
      same_qt (QTransform _ _ a b c d e f g h i) (QTransform _ _ a' b' c' d' e' f' g' h' i')
  | same_quaternion s x y z s' x' y' z' : same_float 32 s s' -> same_float 32 x x' ->
      same_float 32 y y' -> same_float 32 z z' ->
      same_qt (QQuaternion _ _ s x y z) (QQuaternion _ _ s' x' y' z').

  Variable url_string : Url -> list Z.
  Variable url_parse : list Z -> Url.
  Variable png_save : Image -> list Z.
  Variable image_load : list Z -> list Z -> Image.

  (** Both edges of one direction of a rectangle and its extent are ints, as is the edge after the
      last. *)
  Definition extent (a b : Z) : Prop :=
    in_s 32 a /\ in_s 32 b /\ b <> 2 ^ 31 - 1 /\ in_s 32 (b - a) /\ in_s 32 (b - a + 1).

  (** The values that are sent faithfully; everything else is listed in the theorems that end in
      [_refuted].  Of URLs and images it is required that Qt reads back what it writes. *)
  Definition faithful (v : qtval) : Prop :=
    match v with
    | QUrl _ _ u => bytes (url_string u) /\ url_parse (url_string u) = u
    | QChar _ _ c => in_u 16 c
    | QUuid _ _ d1 d2 d3 d4 =>
        in_u 32 d1 /\ in_u 16 d2 /\ in_u 16 d3 /\ length d4 = 8%nat /\ Forall (in_u 8) d4
    | QTime _ _ mds => in_s 32 mds /\ mds <> -1
    | QDate _ _ jd => -784350574879 <= jd <= 784354017364 \/ jd = - 2 ^ 63
    | QDateTime _ _ spec jd mds => spec = LocalTime /\ -784350574879 <= jd <= 784354017364 /\ 0 <= mds < 86400000
    | QSize _ _ w h => in_s 32 w /\ in_s 32 h
    | QSizeF _ _ w h => in_u 64 w /\ in_u 64 h
    | QPoint _ _ x y => in_s 32 x /\ in_s 32 y
    | QPointF _ _ x y => in_u 64 x /\ in_u 64 y
    | QRect _ _ x1 y1 x2 y2 => extent x1 x2 /\ extent y1 y2
    | QRectF _ _ x y w h => in_u 64 x /\ in_u 64 y /\ in_u 64 w /\ in_u 64 h
    | QPolygon _ _ l => Forall (fun p => in_s 32 (fst p) /\ in_s 32 (snd p)) l
    | QPolygonF _ _ l => Forall (fun p => in_u 64 (fst p) /\ in_u 64 (snd p)) l
    | QColor _ _ spec a r g b =>
        spec = Rgb /\ Forall (fun c => exists b, in_u 8 b /\ c = b * 257) [a; r; g; b]
    | QMatrix4x4 _ _ l => length l = 16%nat /\ Forall (in_u 32) l
    | QVector2D _ _ x y => in_u 32 x /\ in_u 32 y
    | QVector3D _ _ x y z => in_u 32 x /\ in_u 32 y /\ in_u 32 z
    | QVector4D _ _ x y z w => in_u 32 x /\ in_u 32 y /\ in_u 32 z /\ in_u 32 w
    | QTransform _ _ a b c d e f g h i => Forall (in_u 64) [a; b; c; d; e; f; g; h; i]
    | QQuaternion _ _ s x y z => in_u 32 s /\ in_u 32 x /\ in_u 32 y /\ in_u 32 z
    | QImage _ _ i => bytes (png_save i) /\ image_load (png_save i) [80; 78; 71] = i
    end.
End Same.
