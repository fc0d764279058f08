From Coq Require Import Reals List.
From Verif Require Import GeoModel.
Import ListNotations.
Open Scope R_scope.

(* the unit vector of a point on the globe, and the angle between two *)
Definition rad (d : R) : R := d * PI / 180.
Definition unit_x (p : point) : R := cos (rad (snd p)) * cos (rad (fst p)).
Definition unit_y (p : point) : R := cos (rad (snd p)) * sin (rad (fst p)).
Definition unit_z (p : point) : R := sin (rad (snd p)).
Definition dot (p q : point) : R := unit_x p * unit_x q + unit_y p * unit_y q + unit_z p * unit_z q.
Definition radius : R := 6371.
Definition same_place (p q : point) : Prop := unit_x p = unit_x q /\ unit_y p = unit_y q /\ unit_z p = unit_z q.
