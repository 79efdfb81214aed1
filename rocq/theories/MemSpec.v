(** A grid and the array it holds. *)
From Verif Require Import ShareModel.

(** The array of grid [h] is memory block [b]. *)
Definition points {V A} (s : @st V A) (h b : nat) : Prop := d_ptr (s_d s (h_data (s_h s h))) = Some b.
