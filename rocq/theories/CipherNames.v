(** The cipher names of /repo/tlsnames.go:15-124, copied by tools/gen_ciphers.py. *)
From Verif Require Import Bytes.

Definition cipherTable : list (N * bytes) :=
  [ (0, B "NULL-CIPHER-ERROR");
    (4, B "SSLv3:RC4-MD5:128");
    (5, B "SSLv3:RC4-SHA:128");
    (7, B "SSLv3:IDEA-CBC-SHA:128");
    (10, B "SSLv3:DES-CBC3-SHA:168");
    (19, B "SSLv3:EDH-DSS-DES-CBC3-SHA:168");
    (22, B "SSLv3:EDH-RSA-DES-CBC3-SHA:168");
    (31, B "SSLv3:KRB5-DES-CBC3-SHA:168");
    (32, B "SSLv3:KRB5-RC4-SHA:128");
    (33, B "SSLv3:KRB5-IDEA-CBC-SHA:128");
    (35, B "SSLv3:KRB5-DES-CBC3-MD5:168");
    (36, B "SSLv3:KRB5-RC4-MD5:128");
    (37, B "SSLv3:KRB5-IDEA-CBC-MD5:128");
    (47, B "SSLv3:AES128-SHA:128");
    (50, B "SSLv3:DHE-DSS-AES128-SHA:128");
    (51, B "SSLv3:DHE-RSA-AES128-SHA:128");
    (53, B "SSLv3:AES256-SHA:256");
    (56, B "SSLv3:DHE-DSS-AES256-SHA:256");
    (57, B "SSLv3:DHE-RSA-AES256-SHA:256");
    (60, B "TLSv1.2:AES128-SHA256:128");
    (61, B "TLSv1.2:AES256-SHA256:256");
    (64, B "TLSv1.2:DHE-DSS-AES128-SHA256:128");
    (65, B "SSLv3:CAMELLIA128-SHA:128");
    (68, B "SSLv3:DHE-DSS-CAMELLIA128-SHA:128");
    (69, B "SSLv3:DHE-RSA-CAMELLIA128-SHA:128");
    (103, B "TLSv1.2:DHE-RSA-AES128-SHA256:128");
    (106, B "TLSv1.2:DHE-DSS-AES256-SHA256:256");
    (107, B "TLSv1.2:DHE-RSA-AES256-SHA256:256");
    (132, B "SSLv3:CAMELLIA256-SHA:256");
    (135, B "SSLv3:DHE-DSS-CAMELLIA256-SHA:256");
    (136, B "SSLv3:DHE-RSA-CAMELLIA256-SHA:256");
    (138, B "SSLv3:PSK-RC4-SHA:128");
    (139, B "SSLv3:PSK-3DES-EDE-CBC-SHA:168");
    (140, B "SSLv3:PSK-AES128-CBC-SHA:128");
    (141, B "SSLv3:PSK-AES256-CBC-SHA:256");
    (144, B "SSLv3:DHE-PSK-AES128-CBC-SHA:128");
    (145, B "SSLv3:DHE-PSK-AES256-CBC-SHA:256");
    (150, B "SSLv3:SEED-SHA:128");
    (153, B "SSLv3:DHE-DSS-SEED-SHA:128");
    (154, B "SSLv3:DHE-RSA-SEED-SHA:128");
    (156, B "TLSv1.2:AES128-GCM-SHA256:128");
    (157, B "TLSv1.2:AES256-GCM-SHA384:256");
    (158, B "TLSv1.2:DHE-RSA-AES128-GCM-SHA256:128");
    (159, B "TLSv1.2:DHE-RSA-AES256-GCM-SHA384:256");
    (162, B "TLSv1.2:DHE-DSS-AES128-GCM-SHA256:128");
    (163, B "TLSv1.2:DHE-DSS-AES256-GCM-SHA384:256");
    (168, B "TLSv1.2:PSK-AES128-GCM-SHA256:128");
    (169, B "TLSv1.2:PSK-AES256-GCM-SHA384:256");
    (170, B "TLSv1.2:DHE-PSK-AES128-GCM-SHA256:128");
    (171, B "TLSv1.2:DHE-PSK-AES256-GCM-SHA384:256");
    (174, B "TLSv1:PSK-AES128-CBC-SHA256:128");
    (178, B "TLSv1:DHE-PSK-AES128-CBC-SHA256:128");
    (4865, B "TLSv1.3:TLS_AES_128_GCM_SHA256:128");
    (4866, B "TLSv1.3:TLS_AES_256_GCM_SHA384:256");
    (4867, B "TLSv1.3:TLS_CHACHA20_POLY1305_SHA256:256");
    (4868, B "TLSv1.3:TLS_AES_128_CCM_SHA256:128");
    (49154, B "SSLv3:ECDH-ECDSA-RC4-SHA:128");
    (49155, B "SSLv3:ECDH-ECDSA-DES-CBC3-SHA:168");
    (49156, B "SSLv3:ECDH-ECDSA-AES128-SHA:128");
    (49157, B "SSLv3:ECDH-ECDSA-AES256-SHA:256");
    (49159, B "SSLv3:ECDHE-ECDSA-RC4-SHA:128");
    (49160, B "SSLv3:ECDHE-ECDSA-DES-CBC3-SHA:168");
    (49161, B "TLSv1:ECDHE-ECDSA-AES128-SHA:128");
    (49162, B "TLSv1:ECDHE-ECDSA-AES256-SHA:256");
    (49164, B "SSLv3:ECDH-RSA-RC4-SHA:128");
    (49165, B "SSLv3:ECDH-RSA-DES-CBC3-SHA:168");
    (49166, B "SSLv3:ECDH-RSA-AES128-SHA:128");
    (49167, B "SSLv3:ECDH-RSA-AES256-SHA:256");
    (49169, B "SSLv3:ECDHE-RSA-RC4-SHA:128");
    (49170, B "SSLv3:ECDHE-RSA-DES-CBC3-SHA:168");
    (49171, B "TLSv1:ECDHE-RSA-AES128-SHA:128");
    (49172, B "TLSv1:ECDHE-RSA-AES256-SHA:256");
    (49187, B "TLSv1.2:ECDHE-ECDSA-AES128-SHA256:128");
    (49188, B "TLSv1.2:ECDHE-ECDSA-AES256-SHA384:256");
    (49189, B "TLSv1.2:ECDH-ECDSA-AES128-SHA256:128");
    (49190, B "TLSv1.2:ECDH-ECDSA-AES256-SHA384:256");
    (49191, B "TLSv1.2:ECDHE-RSA-AES128-SHA256:128");
    (49192, B "TLSv1.2:ECDHE-RSA-AES256-SHA384:256");
    (49193, B "TLSv1.2:ECDH-RSA-AES128-SHA256:128");
    (49194, B "TLSv1.2:ECDH-RSA-AES256-SHA384:256");
    (49195, B "TLSv1.2:ECDHE-ECDSA-AES128-GCM-SHA256:128");
    (49196, B "TLSv1.2:ECDHE-ECDSA-AES256-GCM-SHA384:256");
    (49197, B "TLSv1.2:ECDH-ECDSA-AES128-GCM-SHA256:128");
    (49198, B "TLSv1.2:ECDH-ECDSA-AES256-GCM-SHA384:256");
    (49199, B "TLSv1.2:ECDHE-RSA-AES128-GCM-SHA256:128");
    (49200, B "TLSv1.2:ECDHE-RSA-AES256-GCM-SHA384:256");
    (49201, B "TLSv1.2:ECDH-RSA-AES128-GCM-SHA256:128");
    (49202, B "TLSv1.2:ECDH-RSA-AES256-GCM-SHA384:256");
    (49205, B "TLSv1:ECDHE-PSK-AES128-CBC-SHA:128");
    (49206, B "TLSv1:ECDHE-PSK-AES256-CBC-SHA:256");
    (49207, B "TLSv1:ECDHE-PSK-AES128-CBC-SHA256:128");
    (49308, B "TLSv1.2:AES128-CCM:128");
    (49309, B "TLSv1.2:AES256-CCM:256");
    (49310, B "TLSv1.2:DHE-RSA-AES128-CCM:128");
    (49311, B "TLSv1.2:DHE-RSA-AES256-CCM:256");
    (49316, B "TLSv1.2:PSK-AES128-CCM:128");
    (49317, B "TLSv1.2:PSK-AES256-CCM:256");
    (49318, B "TLSv1.2:DHE-PSK-AES128-CCM:128");
    (49319, B "TLSv1.2:DHE-PSK-AES256-CCM:256");
    (49324, B "TLSv1.2:ECDHE-ECDSA-AES128-CCM:128");
    (49325, B "TLSv1.2:ECDHE-ECDSA-AES256-CCM:256");
    (52392, B "TLSv1.2:ECDHE-RSA-CHACHA20-POLY1305:256");
    (52393, B "TLSv1.2:ECDHE-ECDSA-CHACHA20-POLY1305:256");
    (52394, B "TLSv1.2:DHE-RSA-CHACHA20-POLY1305:256");
    (52395, B "TLSv1.2:PSK-CHACHA20-POLY1305:256");
    (52396, B "TLSv1.2:ECDHE-PSK-CHACHA20-POLY1305:256");
    (52397, B "TLSv1.2:DHE-PSK-CHACHA20-POLY1305:256") ]%N.

(** Go's map lookup: the empty string for an unknown cipher *)
Definition cipherNames (n : N) : bytes :=
  match find (fun e => N.eqb (fst e) n) cipherTable with Some (_, s) => s | None => [] end.
