(** Specification for the distribution of observations, headers and files. *)
From Coq Require Import String Ascii QArith Qcanon.
From Verif Require Import Base TemplateModel UnitModel MpiModel.
Open Scope nat_scope.

(** Exactly one number below [n] satisfies [P]. *)
Definition exactly_one (n : nat) (P : nat -> Prop) : Prop :=
  exists r, r < n /\ P r /\ forall q, q < n -> P q -> q = r.

(** A rank works on detector [i] and observation [o]. *)
Definition works {O} (result : res (list bool * list O)) (i : nat) (o : O) : Prop :=
  exists mask obs, result = Ok (mask, obs) /\ nth_error mask i = Some false /\ In o obs.

(** A well formed share: some detectors fewer, consecutive observations. *)
Definition share {O} (mask : list bool) (obs : list O) (result : res (list bool * list O)) : Prop :=
  exists mask' obs' before after, result = Ok (mask', obs') /\ length mask' = length mask /\
    (forall i, nth_error mask i = Some true -> nth_error mask' i = Some true) /\ obs = before ++ obs' ++ after.

(** Headers of images with [naxis] axes and [n] rows (last axis). *)
Definition image_header (h : header) (naxis n : Z) : Prop :=
  h_get h kNAXIS = Some (HInt naxis) /\ h_get h (lit "NAXIS1") <> None /\
  h_get h (kNAXIS ++ str_int naxis) = Some (HInt n) /\ (0 <= n)%Z /\
  match h_get h (kCRPIX ++ str_int naxis) with Some (HStr _) => False | _ => True end.
Definition number_of (v : hval) : Qc := match v with HInt n => Q2Qc (inject_Z n) | HNum q => q | HStr _ => 0%Qc end.

(** [hs] are the headers of consecutive bands of the image of header [h]. *)
Definition bands (h : header) (naxis n : Z) (hs : list header) : Prop :=
  exists rows : list Z, length rows = length hs /\ Forall (fun x => (0 <= x)%Z) rows /\ sumZ rows = n /\
  forall r g, nth_error hs r = Some g ->
    h_get g (kNAXIS ++ str_int naxis) = option_map HInt (nth_error rows r) /\
    option_map number_of (h_get g (kCRPIX ++ str_int naxis)) =
      option_map (fun c => (number_of c - Q2Qc (inject_Z (sumZ (firstn r rows))))%Qc) (h_get h (kCRPIX ++ str_int naxis)) /\
    forall k, k <> kNAXIS ++ str_int naxis -> k <> kCRPIX ++ str_int naxis -> h_get g k = h_get h k.
