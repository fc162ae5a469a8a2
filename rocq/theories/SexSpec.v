(* Independent vocabulary for sexagesimal numbers. *)
From Coq Require Import Ascii String QArith Qround Qabs.
From Verif Require Import Base StrSpec NumSpec NumModel RealSpec.
Local Open Scope Z_scope.

(* three texts separated by colons *)
Definition three (s a b c : list ascii) : Prop :=
  s = a ++ ":"%char :: b ++ ":"%char :: c /\ ~ In ":"%char a /\ ~ In ":"%char b /\ ~ In ":"%char c.
(* the number that a sexagesimal text means: the sign applies to the three parts *)
Definition sexagesimal (s : list ascii) (neg : bool) (h m : Z) (sec : Q) : Prop :=
  exists dh dm ds, s = (if neg then ["-"%char] else []) ++ dh ++ ":"%char :: dm ++ ":"%char :: ds /\
    writes dh h /\ writes dm m /\ mantissa ds sec.
Definition sex_value (neg : bool) (h m : Z) (sec : Q) : Q :=
  (inject_Z (if neg then -1 else 1) * (inject_Z h + inject_Z m / 60 + sec / 3600))%Q.
Definition int64 (x : Z) : Prop := - 2 ^ 63 <= x <= 2 ^ 63 - 1.
Definition word_of (s : list ascii) (w : String.string) : Prop := same_word s (list_ascii_of_string w).
(* a double, as text *)
Definition double_text (s : list ascii) : Prop :=
  (exists v, real_number s v /\ (Qabs v < inject_Z (2 ^ 1024 - 2 ^ 970))%Q) \/
  exists w, In w ["NAN"; "+NAN"; "-NAN"; "INF"; "+INF"; "INF+"; "-INF"; "INF-"]%string /\ word_of s w.
Definition well_formed (s : list ascii) : Prop :=
  exists a b c, three s a b c /\ (exists h, int_text a h /\ int64 h) /\ (exists m, int_text b m /\ int64 m) /\ double_text c.
(* the parts of |x|: whole units, minutes and seconds *)
Definition whole (x : Q) : Z := Qfloor (Qabs x).
Definition minutes (x : Q) : Z := Qfloor ((Qabs x - inject_Z (whole x)) * 60).
Definition seconds (x : Q) : Q := (((Qabs x - inject_Z (whole x)) * 60 - inject_Z (minutes x)) * 60)%Q.
(* two digits, a point and decimals *)
Definition ss_text (s : list ascii) (v : Q) : Prop :=
  exists d f n k, s = d ++ "."%char :: f /\ List.length d = 2%nat /\ writes d n /\ writes f k /\
    (v == inject_Z n + inject_Z k / 10 ^ Z.of_nat (List.length f))%Q.
(* h:mm:ss.s *)
Definition clock (s : list ascii) (neg : bool) (h m : Z) (sec : Q) : Prop :=
  exists dh dm ds, s = (if neg then ["-"%char] else []) ++ dh ++ ":"%char :: dm ++ ":"%char :: ds /\
    writes dh h /\ shortest dh /\ writes dm m /\ List.length dm = 2%nat /\ ss_text ds sec.
