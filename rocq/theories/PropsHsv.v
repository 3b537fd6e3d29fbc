(** Property C106: conversion of colors to hue, saturation and value in double precision. *)
From Coq Require Import Reals QArith Qreals.
From Flocq Require Import Core.
From Verif Require Import Res FloatModel HsvModel FloatSpec ChannelSpec HsvProofs.
Open Scope R_scope.

(** C106. For every color the components of which are not all equal, and with the roundings of double precision, the hue is in [0, 360),
    the saturation and the value are in (0, 1], and they are close to those of the textbooks. *)
Theorem C106_color : forall r g b lo hi, (0 <= r <= 255)%Z -> (0 <= g <= 255)%Z -> (0 <= b <= 255)%Z ->
  hi = Z.max r (Z.max g b) -> lo = Z.min r (Z.min g b) -> (lo < hi)%Z ->
  exists h s v q, drgbToHsv r g b = mkDhsv (Some h) (Some s) (Some v) /\
    Finite h /\ Finite s /\ Finite v /\ 0 <= real h < 360 /\ 0 < real s <= 1 /\ 0 < real v <= 1 /\
    Rabs (real v - IZR hi / 255) <= bpow radix2 (-51) /\ Rabs (real s - IZR (hi - lo) / IZR hi) <= bpow radix2 (-41) /\
    HueOf r g b lo hi q /\ (0 <= q < 360)%Q /\ Rabs (real h - Q2R q) <= bpow radix2 (-31).
Proof. exact color_near. Qed.
Print Assumptions C106_color.

(** The bounds are reached exactly where they should: no rounding hides or invents a full brightness, a full saturation or a pure red. *)
Theorem C106_bounds : forall r g b lo hi h s v, (0 <= r <= 255)%Z -> (0 <= g <= 255)%Z -> (0 <= b <= 255)%Z ->
  hi = Z.max r (Z.max g b) -> lo = Z.min r (Z.min g b) -> drgbToHsv r g b = mkDhsv (Some h) (Some s) (Some v) ->
  (real v = 1 <-> hi = 255%Z) /\ (real s = 1 <-> lo = 0%Z) /\ (real h = 0 <-> r = hi /\ g = b).
Proof. exact color_exact. Qed.
Print Assumptions C106_bounds.

(** No rounding turns a color into a grey or conversely: the members left uninitialised are those of the greys. *)
Theorem C106_grey : forall r g b, (0 <= r <= 255)%Z -> (0 <= g <= 255)%Z -> (0 <= b <= 255)%Z ->
  (dhsvH (drgbToHsv r g b) = None <-> r = g /\ g = b) /\ (dhsvS (drgbToHsv r g b) = None <-> r = g /\ g = b) /\
  (dhsvV (drgbToHsv r g b) = None <-> r = 0 /\ g = 0 /\ b = 0)%Z.
Proof. exact color_grey. Qed.
Print Assumptions C106_grey.

(** The hue is not exact in general: that of a dark pure green is greater than 120. *)
Theorem C106_rounding : exists h s v, drgbToHsv 0 3 0 = mkDhsv (Some h) (Some s) (Some v) /\ HueOf 0 3 0 0 3 120 /\ 120 < real h.
Proof. exact green_rounded. Qed.
Print Assumptions C106_rounding.

(** Turquoise *)
Example C106_met : exists h s v, drgbToHsv 64 224 208 = mkDhsv (Some h) (Some s) (Some v) /\ HueOf 64 224 208 64 224 174 /\ real h = 174.
Proof. exact turquoise. Qed.
