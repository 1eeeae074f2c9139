(** Numerical integration over reference elements.
    Models src/Geom/Quadrature.hpp.  The tables are read as exact decimals and
    fractions; [t_real] rounding is not modelled. *)
From Coq Require Import List ZArith QArith Reals Qreals Bool.
From Verif Require Import Base.Prelude Geom.ElemModel.
Import ListNotations.
Local Open Scope Q_scope.

(** Quadrature.hpp 47-49. *)
Definition GaussLegendre_1 : list (list Q) :=
  [ [0];
    [2] ].
(** Quadrature.hpp 51-53. *)
Definition GaussLegendre_2 : list (list Q) :=
  [ [(-577350269189626#1000000000000000); 577350269189626#1000000000000000];
    [1; 1] ].
(** Quadrature.hpp 55-57. *)
Definition GaussLegendre_3 : list (list Q) :=
  [ [(-774596669241483#1000000000000000); 0; 774596669241483#1000000000000000];
    [555555555555555#1000000000000000; 888888888888889#1000000000000000;
      555555555555555#1000000000000000] ].
(** Quadrature.hpp 59-61. *)
Definition GaussLegendre_4 : list (list Q) :=
  [ [(-861136311594053#1000000000000000); (-339981043584856#1000000000000000);
      339981043584856#1000000000000000; 861136311594053#1000000000000000];
    [347854845137454#1000000000000000; 652145154862546#1000000000000000;
      652145154862546#1000000000000000; 347854845137454#1000000000000000] ].
(** Quadrature.hpp 63-65. *)
Definition GaussLegendre_5 : list (list Q) :=
  [ [(-906179845938664#1000000000000000); (-538469310105683#1000000000000000); 0;
      538469310105683#1000000000000000; 906179845938664#1000000000000000];
    [236926885056189#1000000000000000; 478628670499366#1000000000000000;
      568888888888889#1000000000000000; 478628670499366#1000000000000000;
      236926885056189#1000000000000000] ].
(** Quadrature.hpp 67-69. *)
Definition GaussJacobi_01A2B0_1 : list (list Q) :=
  [ [250000000000000#1000000000000000];
    [333333333333333#1000000000000000] ].
(** Quadrature.hpp 71-73. *)
Definition GaussJacobi_01A2B0_2 : list (list Q) :=
  [ [122514822655441#1000000000000000; 544151844011225#1000000000000000];
    [232547451253508#1000000000000000; 100785882079825#1000000000000000] ].
(** Quadrature.hpp 75-77. *)
Definition GaussJacobi_01A2B0_3 : list (list Q) :=
  [ [72994024073150#1000000000000000; 347003766038352#1000000000000000;
      705002209888499#1000000000000000];
    [157136361064887#1000000000000000; 146246269259866#1000000000000000;
      29950703008581#1000000000000000] ].
(** Quadrature.hpp 79-81. *)
Definition GaussJacobi_01A2B0_4 : list (list Q) :=
  [ [48500549446997#1000000000000000; 238600737551862#1000000000000000;
      517047295104367#1000000000000000; 795851417896773#1000000000000000];
    [110888415611278#1000000000000000; 143458789799214#1000000000000000;
      68633887172923#1000000000000000; 10352240749918#1000000000000000] ].
(** Quadrature.hpp 83-85. *)
Definition GaussJacobi_01A2B0_5 : list (list Q) :=
  [ [34578939918215#1000000000000000; 173480320771696#1000000000000000;
      389886387065519#1000000000000000; 634333472630887#1000000000000000;
      851054212947016#1000000000000000];
    [81764784285771#1000000000000000; 126198961899911#1000000000000000;
      89200161221590#1000000000000000; 32055600722962#1000000000000000;
      4113825203099#1000000000000000] ].
(** Quadrature.hpp 87-92. *)
Definition HammerTri_1 : list (list Q) :=
  [ [1#3];
    [1#3];
    [1#2] ].
(** Quadrature.hpp 94-98. *)
Definition HammerTri_3 : list (list Q) :=
  [ [2#3; 1#6; 1#6];
    [1#6; 2#3; 1#6];
    [1#6; 1#6; 1#6] ].
(** Quadrature.hpp 105-109. *)
Definition HammerTri_6 : list (list Q) :=
  [ [9157621350977102#100000000000000000; 8168475729804585#10000000000000000;
      9157621350977052#100000000000000000; 445948490915965#1000000000000000;
      10810301816807#100000000000000; 445948490915965#1000000000000000];
    [9157621350977102#100000000000000000; 9157621350977052#100000000000000000;
      8168475729804585#10000000000000000; 445948490915965#1000000000000000;
      445948490915965#1000000000000000; 10810301816807#100000000000000];
    [54975871827661#1000000000000000; 54975871827661#1000000000000000;
      54975871827661#1000000000000000; 1116907948390057#10000000000000000;
      1116907948390057#10000000000000000; 1116907948390057#10000000000000000] ].
(** Quadrature.hpp 111-115. *)
Definition HammerTri_7 : list (list Q) :=
  [ [3333333333333335#10000000000000000; 470142064105115#1000000000000000;
      5971587178977#100000000000000; 470142064105115#1000000000000000;
      1012865073234565#10000000000000000; 7974269853530875#10000000000000000;
      1012865073234565#10000000000000000];
    [3333333333333335#10000000000000000; 470142064105115#1000000000000000;
      470142064105115#1000000000000000; 5971587178977#100000000000000;
      1012865073234565#10000000000000000; 1012865073234565#10000000000000000;
      7974269853530875#10000000000000000];
    [1125#10000; 66197076394253#1000000000000000; 66197076394253#1000000000000000;
      66197076394253#1000000000000000; 629695902724135#10000000000000000;
      629695902724135#10000000000000000; 629695902724135#10000000000000000] ].
(** Quadrature.hpp 118-122. *)
Definition HammerTri_12 : list (list Q) :=
  [ [2492867451709105#10000000000000000; 501426509658179#1000000000000000;
      2492867451709105#10000000000000000; 63089014491502#1000000000000000;
      8738219710169954#10000000000000000; 63089014491502#1000000000000000;
      3103524510337845#10000000000000000; 5314504984481699#100000000000000000;
      6365024991213986#10000000000000000; 5314504984481699#100000000000000000;
      6365024991213986#10000000000000000; 3103524510337845#10000000000000000];
    [2492867451709105#10000000000000000; 2492867451709105#10000000000000000;
      501426509658179#1000000000000000; 63089014491502#1000000000000000;
      63089014491502#1000000000000000; 8738219710169954#10000000000000000;
      5314504984481699#100000000000000000; 3103524510337845#10000000000000000;
      5314504984481699#100000000000000000; 6365024991213986#10000000000000000;
      3103524510337845#10000000000000000; 6365024991213986#10000000000000000];
    [5839313786318975#100000000000000000; 5839313786318975#100000000000000000;
      5839313786318975#100000000000000000; 254224531851035#10000000000000000;
      254224531851035#10000000000000000; 254224531851035#10000000000000000;
      4142553780918675#100000000000000000; 4142553780918675#100000000000000000;
      4142553780918675#100000000000000000; 4142553780918675#100000000000000000;
      4142553780918675#100000000000000000; 4142553780918675#100000000000000000] ].
(** Quadrature.hpp 124-129. *)
Definition HammerTet_1 : list (list Q) :=
  [ [25#100];
    [25#100];
    [25#100];
    [1666666666666667#10000000000000000] ].
(** Quadrature.hpp 131-136. *)
Definition HammerTet_4 : list (list Q) :=
  [ [1381966011250105#10000000000000000; 1381966011250105#10000000000000000;
      5854101966249685#10000000000000000; 1381966011250105#10000000000000000];
    [1381966011250105#10000000000000000; 5854101966249684#10000000000000000;
      1381966011250105#10000000000000000; 1381966011250105#10000000000000000];
    [5854101966249684#10000000000000000; 1381966011250105#10000000000000000;
      1381966011250105#10000000000000000; 1381966011250105#10000000000000000];
    [4166666666666666#100000000000000000; 4166666666666666#100000000000000000;
      4166666666666666#100000000000000000; 4166666666666666#100000000000000000] ].
(** Quadrature.hpp 138-143. *)
Definition HammerTet_8 : list (list Q) :=
  [ [1069940147705369#10000000000000000; 1069940147705369#10000000000000000;
      6790179556883893#10000000000000000; 1069940147705369#10000000000000000;
      3280585716625127#10000000000000000; 3280585716625127#10000000000000000;
      1582428501246191#100000000000000000; 3280585716625127#10000000000000000];
    [1069940147705369#10000000000000000; 6790179556883893#10000000000000000;
      1069940147705369#10000000000000000; 1069940147705369#10000000000000000;
      3280585716625127#10000000000000000; 1582428501246191#100000000000000000;
      3280585716625127#10000000000000000; 3280585716625127#10000000000000000];
    [6790179556883893#10000000000000000; 1069940147705369#10000000000000000;
      1069940147705369#10000000000000000; 1069940147705369#10000000000000000;
      1582428501246191#100000000000000000; 3280585716625127#10000000000000000;
      3280585716625127#10000000000000000; 3280585716625127#10000000000000000];
    [1859314997209119#100000000000000000; 1859314997209119#100000000000000000;
      1859314997209119#100000000000000000; 1859314997209119#100000000000000000;
      2307351669457548#100000000000000000; 2307351669457548#100000000000000000;
      2307351669457548#100000000000000000; 2307351669457548#100000000000000000] ].
(** Quadrature.hpp 145-150. *)
Definition HammerTet_14 : list (list Q) :=
  [ [9273525031089125#100000000000000000; 9273525031089125#100000000000000000;
      7217942490673263#10000000000000000; 9273525031089125#100000000000000000;
      3108859192633008#10000000000000000; 3108859192633008#10000000000000000;
      6734224221009777#100000000000000000; 3108859192633008#10000000000000000;
      4550370412564952#100000000000000000; 4544962958743505#10000000000000000;
      4550370412564952#100000000000000000; 4550370412564952#100000000000000000;
      4544962958743505#10000000000000000; 4544962958743505#10000000000000000];
    [9273525031089125#100000000000000000; 7217942490673263#10000000000000000;
      9273525031089125#100000000000000000; 9273525031089125#100000000000000000;
      3108859192633008#10000000000000000; 6734224221009777#100000000000000000;
      3108859192633008#10000000000000000; 3108859192633008#10000000000000000;
      4544962958743505#10000000000000000; 4550370412564952#100000000000000000;
      4550370412564952#100000000000000000; 4544962958743505#10000000000000000;
      4550370412564952#100000000000000000; 4544962958743505#10000000000000000];
    [7217942490673263#10000000000000000; 9273525031089125#100000000000000000;
      9273525031089125#100000000000000000; 9273525031089125#100000000000000000;
      6734224221009777#100000000000000000; 3108859192633008#10000000000000000;
      3108859192633008#10000000000000000; 3108859192633008#10000000000000000;
      4544962958743505#10000000000000000; 4544962958743505#10000000000000000;
      4544962958743505#10000000000000000; 4550370412564952#100000000000000000;
      4550370412564952#100000000000000000; 4550370412564952#100000000000000000];
    [1224884051939367#100000000000000000; 1224884051939367#100000000000000000;
      1224884051939367#100000000000000000; 1224884051939367#100000000000000000;
      1878132095300264#100000000000000000; 1878132095300264#100000000000000000;
      1878132095300264#100000000000000000; 1878132095300264#100000000000000000;
      70910034628469#10000000000000000; 70910034628469#10000000000000000;
      70910034628469#10000000000000000; 70910034628469#10000000000000000;
      70910034628469#10000000000000000; 70910034628469#10000000000000000] ].
(** Quadrature.hpp 152-157. *)
Definition HammerTet_24 : list (list Q) :=
  [ [2146028712591523#10000000000000000; 2146028712591523#10000000000000000;
      3561913862225431#10000000000000000; 2146028712591523#10000000000000000;
      3223378901422754#10000000000000000; 3223378901422754#10000000000000000;
      329863295731736#10000000000000000; 3223378901422754#10000000000000000;
      4067395853461131#100000000000000000; 4067395853461131#100000000000000000;
      8779781243961661#10000000000000000; 4067395853461131#100000000000000000;
      6030056647916491#10000000000000000; 6030056647916491#10000000000000000;
      6366100187501755#100000000000000000; 2696723314583158#10000000000000000;
      6366100187501755#100000000000000000; 6366100187501755#100000000000000000;
      2696723314583158#10000000000000000; 6366100187501755#100000000000000000;
      6366100187501755#100000000000000000; 6366100187501755#100000000000000000;
      2696723314583158#10000000000000000; 6030056647916491#10000000000000000];
    [2146028712591523#10000000000000000; 3561913862225431#10000000000000000;
      2146028712591523#10000000000000000; 2146028712591523#10000000000000000;
      3223378901422754#10000000000000000; 329863295731736#10000000000000000;
      3223378901422754#10000000000000000; 3223378901422754#10000000000000000;
      4067395853461131#100000000000000000; 8779781243961661#10000000000000000;
      4067395853461131#100000000000000000; 4067395853461131#100000000000000000;
      6366100187501755#100000000000000000; 6366100187501755#100000000000000000;
      6366100187501755#100000000000000000; 6030056647916491#10000000000000000;
      2696723314583158#10000000000000000; 6030056647916491#10000000000000000;
      6366100187501755#100000000000000000; 2696723314583158#10000000000000000;
      6366100187501755#100000000000000000; 6030056647916491#10000000000000000;
      6366100187501755#100000000000000000; 2696723314583158#10000000000000000];
    [3561913862225431#10000000000000000; 2146028712591523#10000000000000000;
      2146028712591523#10000000000000000; 2146028712591523#10000000000000000;
      329863295731736#10000000000000000; 3223378901422754#10000000000000000;
      3223378901422754#10000000000000000; 3223378901422754#10000000000000000;
      8779781243961661#10000000000000000; 4067395853461131#100000000000000000;
      4067395853461131#100000000000000000; 4067395853461131#100000000000000000;
      2696723314583158#10000000000000000; 6366100187501755#100000000000000000;
      6030056647916491#10000000000000000; 6366100187501755#100000000000000000;
      6030056647916491#10000000000000000; 6366100187501755#100000000000000000;
      6030056647916491#10000000000000000; 6366100187501755#100000000000000000;
      2696723314583158#10000000000000000; 2696723314583158#10000000000000000;
      6366100187501755#100000000000000000; 6366100187501755#100000000000000000];
    [6653791709694545#1000000000000000000; 6653791709694545#1000000000000000000;
      6653791709694545#1000000000000000000; 6653791709694545#1000000000000000000;
      9226196923942479#1000000000000000000; 9226196923942479#1000000000000000000;
      9226196923942479#1000000000000000000; 9226196923942479#1000000000000000000;
      1679535175886773#1000000000000000000; 1679535175886773#1000000000000000000;
      1679535175886773#1000000000000000000; 1679535175886773#1000000000000000000;
      8035714285714285#1000000000000000000; 8035714285714285#1000000000000000000;
      8035714285714285#1000000000000000000; 8035714285714285#1000000000000000000;
      8035714285714285#1000000000000000000; 8035714285714285#1000000000000000000;
      8035714285714285#1000000000000000000; 8035714285714285#1000000000000000000;
      8035714285714285#1000000000000000000; 8035714285714285#1000000000000000000;
      8035714285714285#1000000000000000000; 8035714285714285#1000000000000000000] ].

Local Open Scope Z_scope.

(** Quadrature.hpp 159-297 GetQuadratureScheme, with the constants of lines 7-44:
    a scheme is its number of points, 0 if there is none. *)
Definition by_order (order s01 s2 s3 s4 s5 s6 : Z) : Z :=
  if (order =? 0) || (order =? 1) then s01 else if order =? 2 then s2 else if order =? 3 then s3
  else if order =? 4 then s4 else if order =? 5 then s5 else if order =? 6 then s6 else 0.
Definition GetQuadratureScheme (ps : ParamSpace) (int_order : Z) : Z :=
  match ps with
  | LineSpace => by_order int_order 1 2 2 3 3 4
  | TriSpace => by_order int_order 1 3 6 6 7 12
  | QuadSpace => by_order int_order 1 4 4 9 9 16
  | TetSpace => by_order int_order 1 4 8 14 14 24
  | HexSpace => by_order int_order 1 8 8 27 27 64
  | PyramidSpace => by_order int_order 1 8 8 27 27 64
  | PrismSpace => by_order int_order (1 * 1) (3 * 2) (6 * 3) (6 * 3) (7 * 3) (12 * 4)
  | UnknownPSpace => 0
  end.

Definition point : Type := Q * Q * Q.
(** A row of a table. *)
Definition tab (t : list (list Q)) (row i : Z) : res Q := do r <- vat t row; vat r i.

(** The one-dimensional rule of a tensor product, by its number of points. *)
Definition GaussLegendre (n : Z) : list (list Q) :=
  if n =? 1 then GaussLegendre_1 else if n =? 2 then GaussLegendre_2
  else if n =? 3 then GaussLegendre_3 else GaussLegendre_4.
Definition GaussJacobi (n : Z) : list (list Q) :=
  if n =? 1 then GaussJacobi_01A2B0_1 else if n =? 2 then GaussJacobi_01A2B0_2
  else if n =? 3 then GaussJacobi_01A2B0_3 else GaussJacobi_01A2B0_4.

(** Quadrature.hpp 303-635 GetQuadraturePoint with the point initialised to 0.  The
    cases without a rule, which set the weight to 1e100, are not reached with a
    scheme of GetQuadratureScheme: [None]. *)
Definition GetQuadraturePoint (ps : ParamSpace) (scheme iG : Z) : res (option (point * Q)) :=
  do _ <- assert_ (iG <? scheme);
  match ps with
  | LineSpace =>
      let at_ t := do x <- tab t 0 iG; do w <- tab t 1 iG; Ok (Some (x, 0%Q, 0%Q, w)) in
      if scheme =? 1 then at_ GaussLegendre_1 else if scheme =? 2 then at_ GaussLegendre_2
      else if scheme =? 3 then at_ GaussLegendre_3 else if scheme =? 4 then at_ GaussLegendre_4
      else Ok None
  | TriSpace =>
      let at_ t := do x <- tab t 0 iG; do y <- tab t 1 iG; do w <- tab t 2 iG; Ok (Some (x, y, 0%Q, w)) in
      if scheme =? 1 then at_ HammerTri_1 else if scheme =? 3 then at_ HammerTri_3
      else if scheme =? 6 then at_ HammerTri_6 else if scheme =? 7 then at_ HammerTri_7
      else if scheme =? 12 then at_ HammerTri_12 else Ok None
  | TetSpace =>
      let at_ t := do x <- tab t 0 iG; do y <- tab t 1 iG; do z <- tab t 2 iG; do w <- tab t 3 iG;
                   Ok (Some (x, y, z, w)) in
      if scheme =? 1 then at_ HammerTet_1 else if scheme =? 4 then at_ HammerTet_4
      else if scheme =? 8 then at_ HammerTet_8 else if scheme =? 14 then at_ HammerTet_14
      else if scheme =? 24 then at_ HammerTet_24 else Ok None
  | QuadSpace =>
      let at_ GLSize :=
        let t := GaussLegendre GLSize in
        let iGi := Z.rem iG GLSize in let iGj := Z.quot iG GLSize in
        do x <- tab t 0 iGi; do y <- tab t 0 iGj; do wx <- tab t 1 iGi; do wy <- tab t 1 iGj;
        Ok (Some (x, y, 0%Q, (wx * wy)%Q)) in
      if scheme =? 1 then at_ 1 else if scheme =? 4 then at_ 2
      else if scheme =? 9 then at_ 3 else if scheme =? 16 then at_ 4 else Ok None
  | HexSpace =>
      let at_ GLSize :=
        let t := GaussLegendre GLSize in
        let iGi := Z.rem iG GLSize in let iGj := Z.rem (Z.quot iG GLSize) GLSize in
        let iGk := Z.quot iG (GLSize * GLSize) in
        do x <- tab t 0 iGi; do y <- tab t 0 iGj; do z <- tab t 0 iGk;
        do wx <- tab t 1 iGi; do wy <- tab t 1 iGj; do wz <- tab t 1 iGk;
        Ok (Some (x, y, z, (wx * wy * wz)%Q)) in
      if scheme =? 1 then at_ 1 else if scheme =? 8 then at_ 2
      else if scheme =? 27 then at_ 3 else if scheme =? 64 then at_ 4 else Ok None
  | PyramidSpace =>
      let at_ GLSize :=
        let t := GaussLegendre GLSize in let j := GaussJacobi GLSize in
        let iGi := Z.rem iG GLSize in let iGj := Z.rem (Z.quot iG GLSize) GLSize in
        let iGk := Z.quot iG (GLSize * GLSize) in
        do x <- tab t 0 iGi; do y <- tab t 0 iGj; do z <- tab j 0 iGk;
        do wx <- tab t 1 iGi; do wy <- tab t 1 iGj; do wz <- tab j 1 iGk;
        Ok (Some ((x * (1 - z))%Q, (y * (1 - z))%Q, z, (wx * wy * wz)%Q)) in
      if scheme =? 1 then at_ 1 else if scheme =? 8 then at_ 2
      else if scheme =? 27 then at_ 3 else if scheme =? 64 then at_ 4 else Ok None
  | PrismSpace =>
      let at_ GLSize h :=
        let t := GaussLegendre GLSize in
        let iGi := Z.rem iG GLSize in let iGj := Z.quot iG GLSize in
        do x <- tab h 0 iGj; do y <- tab h 1 iGj; do z <- tab t 0 iGi;
        do wz <- tab t 1 iGi; do wt <- tab h 2 iGj;
        Ok (Some (x, y, z, (wz * wt)%Q)) in
      if scheme =? 1 * 1 then at_ 1 HammerTri_1 else if scheme =? 3 * 2 then at_ 2 HammerTri_3
      else if scheme =? 6 * 3 then at_ 3 HammerTri_6 else if scheme =? 7 * 3 then at_ 3 HammerTri_7
      else if scheme =? 12 * 4 then at_ 4 HammerTri_12 else Ok None
  | UnknownPSpace => Ok None
  end.

(** Quadrature.hpp 691-706 Quadrature: its points with their weights. *)
Definition quadrature_points (ps : ParamSpace) (int_order : Z) : res (list (option (point * Q))) :=
  let int_scheme := GetQuadratureScheme ps int_order in
  mapM (GetQuadraturePoint ps int_scheme) (map Z.of_nat (seq 0 (Z.to_nat int_scheme))).

(** Quadrature.hpp 708-720 Integration, of a function of the parametric point, started
    at [buf].  [None] stands for a weight of 1e100. *)
Definition Integration (ps : ParamSpace) (int_order : Z) (f : R -> R -> R -> R) (buf : R) : res (option R) :=
  do pts <- quadrature_points ps int_order;
  Ok (fold_left (fun acc p =>
        match acc, p with
        | Some s, Some ((x, y, z), w) => Some (s + f (Q2R x) (Q2R y) (Q2R z) * Q2R w)%R
        | _, _ => None
        end) pts (Some buf)).
