(** Specification side of the elliptic chamber. *)
From Verif Require Import Num Geom.

(** Points strictly inside the ellipse with semi-axes [a] and [b]. *)
Definition in_ellipse (e : ellip) (x y : R) : Prop :=
  x * x / (e_a e * e_a e) + y * y / (e_b e * e_b e) < 1.

Definition ellip_ok (e : ellip) : Prop := 0 < e_a e /\ 0 < e_b e.

(** The hit lies on the straight track from start to end. *)
Definition hit_on_track (k : track) (h : hit) : Prop :=
  exists t, 0 <= t < 1 /\
    h_x h = t_xin k + t * (t_xout k - t_xin k) /\
    h_y h = t_yin k + t * (t_yout k - t_yin k) /\
    h_z h = t_zin k + t * (t_zout k - t_zin k).

(** A step shorter than a ten-thousandth of the distance of its end from the
    centre. *)
Definition short_step (k : track) : Prop :=
  (t_xout k - t_xin k) * (t_xout k - t_xin k) + (t_yout k - t_yin k) * (t_yout k - t_yin k) < 1 / 10^8 * (t_xout k * t_xout k + t_yout k * t_yout k).

Definition unit_normal (h : hit) : Prop := h_nx h * h_nx h + h_ny h * h_ny h = 1.

(** Opposite to the gradient of [x^2/a^2 + y^2/b^2] at the hit point. *)
Definition inward_normal (e : ellip) (h : hit) : Prop :=
  (h_x h = 0 /\ h_y h = 0) \/
  exists c, 0 < c /\ h_nx h = - c * (h_x h / (e_a e * e_a e)) /\ h_ny h = - c * (h_y h / (e_b e * e_b e)).
