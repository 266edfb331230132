(** Model of RandAugment (augmenters/collections.py): the parameters of its augmenters, for a level [m] that is itself a
    stochastic parameter. Simplification: floats are exact. *)
From Verif Require Import Prelude ParModel.
Local Open Scope Q_scope.

(** collections.py:256-258 _float_parameter; _M_MAX is 30 (collections.py:181). *)
Definition float_parameter (level : sparam) (maxval : Q) : sparam := PArith OMultiply level (PDet (maxval / 30) KF32) true.
(** collections.py:260-263 _int_parameter. *)
Definition int_parameter (level : sparam) (maxval : Q) : sparam := PDiscretize (float_parameter level maxval) false.
(** collections.py:288 iap.RandomSign with its default (parameters.py:2672). *)
Definition rnd_sign (p : sparam) : sparam := PRandomSign p (1 # 2).
(** collections.py:272-277 _enhance_parameter, the factor of EnhanceColor, EnhanceContrast, EnhanceBrightness and
    EnhanceSharpness (collections.py:317-320). *)
Definition enhance_parameter (level : sparam) : sparam :=
  PClip (PArith OAdd (PDet 1 KF32) (rnd_sign (float_parameter level (9 # 10))) true) (Some (1 # 10, KF32)) (Some (19 # 10, KF32)).
(** collections.py:239-245: percent of Crop. *)
Definition crop_percent (level : sparam) : sparam := PArith ODivide (PUniform (PDet 0 KInt) level) (PDet 224 KInt) true.
(** collections.py:300: rotate of Affine. *)
Definition rotate (level : sparam) : sparam := rnd_sign (float_parameter level 30).
(** collections.py:303-308: nb_bits of Posterize. *)
Definition nb_bits (level : sparam) : sparam :=
  PArith OSubtract (PDet 8 KInt) (PClip (int_parameter level 6) (Some (0, KInt)) (Some (6, KInt))) true.
(** collections.py:310-316: threshold of Solarize. *)
Definition threshold (level : sparam) : sparam :=
  PClip (PArith OSubtract (PDet 256 KInt) (int_parameter level 256) true) (Some (0, KInt)) (Some (256, KInt)).
(** collections.py:289, 321-322: shear of Affine; [shear_max] is the number of degrees of 0.3 radian. *)
Definition shear (shear_max : Q) (level : sparam) : sparam := rnd_sign (float_parameter level shear_max).
(** collections.py:323-324: translate_percent of Affine. *)
Definition translate (level : sparam) : sparam := rnd_sign (float_parameter level (33 # 100)).
(** collections.py:327-332: size of Cutout. *)
Definition cutout_size (level : sparam) : sparam := PClip (float_parameter level (20 / 32)) (Some (0, KInt)) (Some (20 / 32, KF32)).
