(** Models of src/extensions/libpdffit2/MathUtils.h and ShapeFactors.h and of
    the table of built-in functions, with double idealised as R. *)
From Coq Require Import List ZArith Ascii String Reals.
From Verif Require Import Base ParamModel ParserModel.
Import ListNotations.
Local Open Scope R_scope.

(** models MathUtils.h:27, rad = M_PI/180.0 *)
Definition rad : R := PI / 180.

(** models MathUtils.h:54-92, one definition per inline function *)
Definition m_neg (x : R) := - x.
Definition m_dneg (x : R) := -1.
Definition m_sqr (x : R) := x * x.
Definition m_dsqr (x : R) := 2 * x.
Definition m_cube (x : R) := x * x * x.
Definition m_dcube (x : R) := 3 * m_sqr x.
Definition m_dsqrt (x : R) := (1/2) / sqrt x.
Definition m_dexp (x : R) := exp x.
Definition m_dlog (x : R) := 1 / x.
Definition m_sind (x : R) := sin (rad * x).
Definition m_dsind (x : R) := rad * cos (rad * x).
Definition m_cosd (x : R) := cos (rad * x).
Definition m_dcosd (x : R) := - rad * sin (rad * x).
Definition m_tand (x : R) := tan (rad * x).
Definition m_dtand (x : R) := rad / m_sqr (m_cosd x).
Definition m_dsin (x : R) := cos x.
Definition m_dcos (x : R) := - sin x.
Definition m_dtan (x : R) := 1 / m_sqr (cos x).
Definition m_dasin (x : R) := 1 / sqrt (1 - x * x).
Definition m_dacos (x : R) := -1 / sqrt (1 - x * x).
Definition m_datan (x : R) := 1 / (1 + m_sqr x).
Definition m_asind (x : R) := asin x / rad.
Definition m_dasind (x : R) := m_dasin x / rad.
Definition m_acosd (x : R) := acos x / rad.
Definition m_dacosd (x : R) := m_dacos x / rad.
Definition m_atand (x : R) := atan x / rad.
Definition m_datand (x : R) := m_datan x / rad.

(** models pdffit.cc:131-152 Fit::init_builtins; the C library functions sin,
    cos, tan, asin, acos, atan, exp, log, sqrt are the real functions *)
Definition Rbuiltins : list (builtin R) :=
  [ mkBuiltin (chars "-") m_neg m_dneg;
    mkBuiltin (chars "sin") sin m_dsin;
    mkBuiltin (chars "cos") cos m_dcos;
    mkBuiltin (chars "tan") tan m_dtan;
    mkBuiltin (chars "sind") m_sind m_dsind;
    mkBuiltin (chars "cosd") m_cosd m_dcosd;
    mkBuiltin (chars "tand") m_tand m_dtand;
    mkBuiltin (chars "asin") asin m_dasin;
    mkBuiltin (chars "acos") acos m_dacos;
    mkBuiltin (chars "atan") atan m_datan;
    mkBuiltin (chars "asind") m_asind m_dasind;
    mkBuiltin (chars "acosd") m_acosd m_dacosd;
    mkBuiltin (chars "atand") m_atand m_datand;
    mkBuiltin (chars "exp") exp m_dexp;
    mkBuiltin (chars "log") ln m_dlog;
    mkBuiltin (chars "sqr") m_sqr m_dsqr;
    mkBuiltin (chars "cube") m_cube m_dcube;
    mkBuiltin (chars "sqrt") sqrt m_dsqrt ].

(** models ShapeFactors.h:30-34 *)
Definition sphereEnvelope (r d : R) : R :=
  let q := r / d in
  if Rlt_dec q 1 then 1 - (3/2) * q + (1/2) * q ^ 3 else 0.

(** models ShapeFactors.h:37-41 *)
Definition dsphereEnvelope (r d : R) : R :=
  let q := r / d in
  if Rlt_dec q 1 then (3/2) * q / d - (3/2) * q ^ 3 / d else 0.
