(** wordbreak/hyphenator/languages/hyph-de-1996.tex, byte for byte; written by tools/gen_patterns.py. *)
From Verif Require Import Base Text.
Local Open Scope text_scope.

Definition de_0 : text := "\message{German Hyphenation Patterns (Reformed Orthography, 2006) `dehyphn-x' 2019-04-04 (WL)}
\patterns{
.ab1a
.ab3l
.abo2
.ab3ol
.ab1or
.abs2
.ab3si
.ab3u
.ach2sp
.ade3n
.ae3
.aft2
.ago1
.ag4r
.ag2u
.ai2s
.akt2a
.al2e
.ale3u4
.al3lei
.al3len
.al3li
.al3se
.al4st
.al2tei
.al4tel
.al4terp
.alter4s3
.al2tra
.alt3s4
.al2tu
.ampe4
.amt2s1
.ana1c
.an4a3t
.an3d2
.anden4k
.an1e
.ang2
.an3g4li
.an3go
.angs4
.angst3
.ani2s
.an3k4
.an3s2
.an4si.
.an2tar
.an3z4
.ap3p4le.
.ari1e
.ar3k2a
.ar2m3ac
.ar4mun
.ar2sc
.ar2tan
.ar4t3ei
.ar4t3erh
.ar2t1r
.arz2
.as4b
.asbe2
.as2ko
.as3ta
.as4ta.
.as4tat
.as3tr
.as2zen
.ata1
.at2h
.au3d
.au4f3
.au6fac
.au6fas
.aufs4
.au2s3
.aussen6du
.auß2
.ax2
.är4schl
.ät2h
.ät2s
.bahn3
.baus4
.be3erb
.beige2
.bei4ge.
.beige4s
.bel2a
.be3r2a
.ber2e
.ber2g3a
.ber4g3e4b
.ber4gin
.ber2g3r
.ber2tr
.bi4os
.bi2t
.bit1a
.blau3
.bleis4
.boge2
.bogen3
.bogens4
.bo4s3k
.brut3s
.bu4cher
.bu2ser
.bü3b
.bübe3
.by4t
.ca2s3t
.ce2ra
.ch2
.champi4o
.char4mes
.chi3er
.ch6lor
.dab4
.da4ch3en
.da2r1
.dar3in
.dar2m1
.da4te.
.da4tes
.de2al
.de1i
.dein2
.de3lo
.de3na
.den2ka
.den2kl
.den2ko
.de1o2
.de3r4en
.de1s
.des4pe
.des2t
.diä2r
.di3el
.die3n2e
.diens2
.dien4st
.diensta6d
.do3b
.do4mo
.do3pe
.dor2f1
.do2tr
.dys3
.ebe2r1
.eg2o
.eh2e
.ehe1i
.ehe5n
.eichs4
.ei3e4
.ei3f2e
.ei4fr
.ei3k
.ei4na
.ein3d
.ei2ne2
.ein3eb
.ei3n4erl
.ein3sp
.eise4
.ei2sp
.eis3s2
.ei2s5t
.ei4tr
.eke2
.ek3li
.el2a
.el2bi
.el2bl
.elb3s
.el2fei
.el2fl
.em3m2
.en1
.en4da
.en2d3er2
.en2d3r
.end3s
.en4dü
.en3ga
.en2gl
.enk2
.enn2
.enns3
.ent3
.en4ta
.en4tei
.en5thalp
.en4tio
.en4t1r
.en5trop
.ents4
.epi3c
.er2bei
.er6brecht
.er2bu
.er2dan
.erden4k
.er2d3er
.er1e
.ere3c
.er2em
.erf4
.er1i
.er4stein
.erster4
.er6stritt.
.er8stritten.
.er2z3el
.er2zen2
.es3p
.es3ta2
.est4e
.es3th
.es3t3r
.et2s
.eu3
.eug4
.eur4
.ext4
.fe3la3
.feri3
.fer2no
.fe2st
.fi3d
.fi3est
.fi2le.
.fi2len
.fi2s
.flu2g1
.fs2
.fu2sc
.ga4me.
.gan2ga
.ga2s1
.gas3e
.ga4sp
.ga4t
.gd2
.gebe2a
.geb2l
.gee4
.gel2b3r
.gel2d1
.ge3lu
.ge5nar
.gen4aug
.ge3n4e
.gene5cke
.ge3n2o
.ge3r2a
.ger2e
.ge3ro
.ger4s
.ge3sa
.ge3ste
.glan2
.glanz3
.gs4t
.gus2
.halt4e
.han2f
.hau2t1
.he2bei
.he2r
.he4r3an
.he3rat
.her4b3ra
.he3rer
.he3ri
.he4r3inn
.hin3u
.hips4
.hi4s
.hof1
.ho4fen
.ho4met
.hus3s
.ia2
.ia4t
.im2a
.ima2ge
.imm2
.im5mu
.in1
.ind2
.in3gl
.ink2
.in3n2e
.in3sk
.in3t2
.inu1
.io4d
.ioni1
.ire3
.is2a
.is3ta
.istri3
.it2h
.iv2
.joni1
.ka2b3l
.ka2i
.ka5ka
.kal2a
.ka3le
.ka3t2a
.kat3i
.ka4ti4o
.ki2e
.ko3b
.kopf1
.kor2da
.kraf2
.ks2
.kus2
.la3be
.lan4de4mi
.lat3s
.le4ar
.le2gas
.leh4me
.le3n2i
.lich6ter6sc
.li4f
.li2ve.
.lo2g3in
.lo2sc
.lo4sk
.loss4
.lo2tr
.lo3ver
.luster4
.lus4tr
.lut2h
.ly2s3
.ma3d
.mal4e
.mani2e
.ma2st
.mat4c
.ma5tr
.matu3
.md2
.mel2a
.me3ne
.me3no
.men4schl
.men4schw
.ment2
.mes4sp
.mi2f
.mik4
.mil2z1
.mi2s
.mi4t1
.mm2
.na3no
.na3t
.näs1c
.nebe4n
.ner2f
.ne1ro
.ne2s
.nich2
.nicht3e
.ni2e
.ni3k4l
.nul2
.nus2
.oa3
.ob1a
.obe2
.ober3ei
.ob3i4t
.och3
.of2e
.oper4
.op3fe
.or2a
.ord4e
.or3g
.or3k2
.ort2
.orts3e
.os3s
.os4t1a4
.oste2
.ost3end
.os4ten4de
.os4teng
".
Definition de_1 : text := ".oste4re
.ost5erwe
.os4tes
.os2t3i
.os4tig
.os4t3r
.os2tu
.ot1a
.ou2t
.ou4te
.ozo4
.öd2
.öl3l
.pab4
.par2kl
.part2h
.pe2c
.pe3le
.pe3na
.pf2
.pf4l
.pf4r
.ph2
.ph4t
.poka2
.po4st
.postei4
.pro1
.ps2
.rabe4
.ra3ch2e
.ra3e2
.ra5me
.rau2m
.rau4schl
.re3ale
.reb3s2
.re3cha
.re3insz
.reis4e3i
.rei2s5t
.re3ke
.res6tr
.ri4as
.richt4e
.ro4a
.ro3be
.ro2e
.ro2h
.rom4a
.ro2st
.ro2t3r
.rö2s
.ruf3s
.ruh2r1
.runder4
.rü3b
.rü4cker4
.sa3br
.sali3e
.sami1
.sau1c
.sch4
.schaf6t7end
.se3ck
.se2ei
.seein2
.se2ha
.sen3de
.sen4f3
.sen3s
.se3re
.seri3e
.se1ro
.ser2u
.se2t1
.sha4
.si4en
.si1er
.si3gn
.si4te
.ski1e
.skis2
.sour2
.spani5er.
.spiege6lei
.st2
.st4a
.stau8be8cken.
.st4e
.ste2i
.steiner6k
.sto4re
.st4r
.st4u
.sui4te.
.tage4s
.tan2k3a
.tank3l
.ta3ra
.tar3t2
.ta2t1h
.ta2to
.ta4tor
.ta2t1u
.te2e
.te2f
.tehe3
.teiler4s
.tei6l5ersc
.te3le
.te3no
.tens4
.te1ra
.te2s
.test3r
.ti2a
.ti2e
.ti2me
.ti4mes
.ti3r
.ti2s
.tischen4
.ti6sch5end
.tite4
.tode4
.to2der
.todes3
.to2n
.to4nat
.ton1i
.to4nin
.tons2
.to4pl
.to2pr
.to2w
.tri3es
.tro2s
.ts2
.tse3
.ts4u
.tu3ra
.tu3ri
.turm1
.tur2ma
.ub2
.ufe2
.ufer3
.ul2b3
.um3
.uma2
.ume2
.umo2
.un3a4
.un3d
.une2
.un3g2
.uni4t
.un3s
.uns4t
.ur3a2d
.ural4
.uran4fa
.ur1c
.ur1e
.ur2e3t
.ur2inf
.urin2s
.ur3o4m
.ur1o2p
.ur3s4
.ut2a
.ut3r
.ve5n2e
.ves3t
.voll1
.vo4r
.wah4l
.wa2s
.weg5s
.weine2
.wei2ta
.welter4e
.wer4ker
.wer4kr
.wer2tr
.wetterer6
.wi4e
.wor2
.wort3en4
.wor4tend
.wur2f1
.xe3
.ya4l
.zel4la
.zelle2
.zel4leb
.zeug2i
.zi2e
.zie2l3u
.zin2ka
.zin2s3c
.zin2st
.zuch2
.zug3l
.zu2gra
.zwe2
.zweigen4
.zwei6g5end
a1ab
aa1c
a1a2ce
aa2gr
a1akt
a2al
aa2l1a
aa3lep
aals2t
a1an
a3an.
a1a2q
2a2ar
aa2r3a
aar3b
aar3d
aa3rea
aa2rei
aarf4
aar3g2
aar3k4
aar3s
aart4
1aas
aata2
aa2th
aa4t3r
aat4s3
2a3au
a1ä2
2aba
3abad
ab1alt
a3b2am
ab2ant
ab1au
ab1ä
ab2är
ab2äu
2abbat
2abbin
1abd
ab5dec
2abe.
2abec
ab1eic
abe3id
ab1eil
ab1ein
2ab2el
abe2l1a
abela2d
2a3ben.
1abent
2aber
a2berd
ab1er2k
ab1er2r
ab1er2z
4abes
abe2s1e
ab3esse
2a3bet
2abew
1abf
3abg
1abh
ab5hän
2abi
4abil
ab1ins
ab1ir
abi3st
ab1it
abi4tur
1abk
ab1l
1a2bla
a3blat
1a2blä
a2b3led
3ab3lei
a3blem
2ablet
ab3li
a2blin
ab4lit
2ablo
1a2blö
a2blu
1abn
2abo
3a2bo.
ab2of
3a2bon
4abot
2abö
ab3r
a2bre
ab4ros
2ab4rö
ab3sau
1absc
1abse
1ab3sp
abst2
3absta
ab3s4te
1abstu
ab3sz
3abtei
abte2s
3abtr
2abu
abu3g
a2bum
ab1ur
2abü
1abw
2a3by
aby4t
3abz
2ac.
2a3ca
1ac1c
2acci
a1cem
a1cen
a2ceo
a4ch.
ach1a
a3chari
ach3as
ach3au
2achb
2a1che
a2ch1e2c
ach1ei
ach2ei.
a2chep
a2cherf
a2ch3erh
a2ch3erl
a2cherö
a2ch3erw
2achf
2a1chi
a2chim
ach3l
2ach3m
ach3n
a1cho
a3cho.
a2cho2r
ach3öf
4ach3r
a4chs
2achsc
achs2el
ach3s2i
achs2or
ach3su
a4cht
ach2tak
ach4terh
ach4tersp
ach4t3erw
ach4t1o
acht3rat
ach4traum
ach6träume.
ach8träumen.
ach4trit
acht4s3al
ach2tum
a1chu
ach1u4f
ach3ü
2achv
4ach3w
a1ci
2acke.
a3ckel
ack3erz
a2ckin
ack2sp
acksta2
2a1cl
acon4n
2acu
2ad.
".
Definition de_2 : text := "2ada.
4adab
ad2abr
ad2ag
ad1an
3adap
4a3d2a2r3
2adas
2adat
a2d1au
a3dau.
1a2dä1
ad1c
1add
2ade.
ade2al
a3dec
a3dee
adefi2
2adeg
a3dell
2aden
aden1a
ade4nat
adeo4
ade1ra
a2d1erk
4ade1s
ade3s4p
ades2s
2adf
2adh
2adi
adi3en
adi3er.
adie2sc
adi4st
3adj
2adli
4admu
ad2ob
ado2n
ado4na
a2dop
2adp
2adq
a2dre
2ad3rec
ad3rei
ad3run
2ads2
ad3st
ad3sz
ad2t1
ad4te2
ad5tea
1adv
2ady
2a1e1
ae2b
a2ec
ae2ck
ae2d
ae2i
a2ek
a2el
a3el.
a4ela
a3els
ae2m
ae2n1
ae2o3
aeop2
ae2p
3a2er2o1
aes2a
ae4sc
aes3t
aes5tr
ae4ta
a2e3u
a2ew
ae2x
a2f
2a3fa
a4f1ab
a4f1a2n
a4fap
a4f1au
2a3fä
a4f1än
2a3fe
a4f1ec
a4fentl
a4f1ep
a4fex
a3fé
aff4a
af2f3l
aff2s
aff4th
2a3fi
afi4kanz
afi2kat
afi2t
2af3l
af1la
a3f4lu
2a3fo
a4f3oc
a4ford
a4f1ort
afo1s
2afra
af3rau
af3rä
af3re
2afro
af3rö
af4rü
af3s2a
af3s2h
af2si
af2sp
afs4t
af2t1a
af3tat
af2tei
af2te2l
aft2erk
af2t1o
af2tö
aft3r
af2tra
aft5rei
aft4stä
af2tur
af4tü
a3fu
a4f3ur
2a3fü
afür3
2ag.
2aga
ag1a2b
ag1a2d
ag1ar
a2g1au
ag2del
ag2dr
ag2du
4age.
age2l3ei
age2ler
4agen.
agend2
age2neb
a2gentu
2ages
age4sam
age3sc
age4s3in
age4so
ages3p
ages4sen
age3ste
ages3ti
3aggr
a2g1id
a2gim
ag1inn
2a2gl
ag4lan
ag4las
ag3le
a4glö
2agm
ag2n2
ag4nat
a4gnä
ag4ne
ag5neh
ag4nu
ago3b
ag1op
agori2
ag3rat
a2g3re
a2gri
ag3rie
ag3rin
2ags
ag3s2ah
ag4sam
ag3s2eid
ag5s4porta
agst2
ag1ste
ag3stö
ags3tr
2agt
ag2th
2agu
a2gund
2ah.
2a1ha
ah2an
ah4at
a1hä
2a1he
ahe1in
a2h1er2h
ahe1s
ahe3u
a1h2i
ahin3
ah2l3a2
ah2l1ä
ah2l1ei
ah2lel
ahle4na
ah4l3erd
ah4l3erh
ahl1o2
ah2lö
ahl3sz
ahme1i
ahme3s4
ah3mu
ah4n3a
ah3nee
ah2nef
ahn3el
ah4nerd
ahner4e
ah2nerl
ah4ner4le
ahner2n
ah4nin
ah2no
ahn3ste
ahn3t
1a2hor
ah1os
ah3ös
ahr1a
ah3r2e
ahre4s
ah3ri
ahrta2
ahr4tage
ahr4teng
ahr2ti
ahr2tri
ahr2tro
ahr2tun
ah2ta
ah2te2l
ah2t1ex
ah4t3r
aht3s4
2a1hu
ah3w
a1hy
2ai.
ai1a2
a1ia.
2aib
ai2bl
aid2s
ai1e2
ai3e4n3
aif2
ai3fr
ai3g2
aig4r
a3ik.
a4i3ke
ai2lar
ail3d4
ai2lei
ail3g
ai2lo
2ain
ain2a
a1ind
ai3n4e
ai4neb
ain3s
3airb
ai2sa
a3isch.
ai3schw
ai3s2e
a2it
ait4r
a3iv.
a3ivl
a3ivs
a2jat
aje2
ajekt4o
a2k
2ak.
a3ka
2aka.
2aka3b
akab4r
a4kad
2akal
2akam
2akan
2akar
ak4at
akat1a
aka2tak
1a4kaz
2a3kä
2akb
2akc
2akd
2a3ke
a4kef
a4k1em
a4keo
ak2et
a4keu
2a3ki
ak1ins
aki1s
1akku
2ak3l
a3k4la
ak5lad
ak5lan
ak4li
3aklö
ak4lu
ak5lun
a3kna
ak3no
2a3ko
2a3kr
4akra
ak3res
ak4ri
3akro
a4k3rü
2aks
ak3sh
ak2t1a2b
2aktb
ak2tel
ak3t2er
2aktg
2aktik
2aktis
2aktm
ak2to4b
ak2tö
ak2t3r
ak5t4ri
2aktsi
2aktsp
2aktst
2aktun
2aktw
a3ku
2akun
a4kup
2akur
aku2s
2a3kü
1akz
3akze
a1la
2ala.
4alabo
a2l3abt
al1ac
al1af
2alai
al1akr
al1am
al1ana
2aland
a2l1ang
al1anz
al1app
a3lar.
al3arc
a3lare
al2arm
2al1arr
a2lart
ala2s
a3lat.
alat3s
alat3z
al1au
".
Definition de_3 : text := "al3aug
a1lä
a2l1äm
al1än
al1är
al1äu
3albat
al2bär
al2berh
al2b3er2w
al2b1l
al2boh
al2bon
alb3ru
alb3st
al4dan
al2dä
al2d3erl
al2d3ern
alde2s
ald3inn
ald1r
al2drä
alds2
2ale
4a3le.
ale4ar
a2l1e2b
al1eck
a4l1ef
a2l1ei
a3l2eic
a4lein
a2l1el
5a2lema
a2l1e2mi
al1emp
4a3len.
alende2
al3endr
al3ends
a2leng
al2enn
al1e2po
4a3ler.
a2l1erb
aler2e
a2l1erf
a2l1er2h
aler2kl
a2l3erl
al1erm
aler4mi
a2l1er4r
aler3s
a2l1ert
aler3w
3a2l3erwä
4ales
a2l1e4sk
a2less
a4leth
a2l1eu
alf4r
1alge.
3algi
al2gli
al3glo
1algo
3algor
2ali
al2imb
al1imm
ali2nal
al1ind
alin2ge
a2l1in2q
al1ins
alken1
al2klö
al2kne
al2kof
1alkoh
alk3s2
alks4t
al2lab
al3lad
al2l1an
al2l1a2r
al4lec
3allee
al3lend
aller2z
al5les
al2lid
alli3er.
alli5ers.
al2lob
allo3c
al2lop
al2löf
al2map
al4m3ast
almo4de.
2alo.
a2l1ob
3a2loe
a2l1of
4alog
alo2ga
alo2gr
alo3is.
al1ont
alori2
al1ort
2alos
a2l1ö
al2ös
3alp.
3alpe.
1alph
al2pho
al3sak
al2schm
al3ska
als2p
al3sterb
al3str
al2sum
al2t1ak
alt3alg
al3tam
al2tan
al2tat
al2tau
1altä
al4tb
al4td
alt3eis
alt3elt
al2temu
alter3f
alt3er4pr
al2teu
al2tid
al2tin
alt1op
al2tö
alt3rad
al2t3rat
al2tre
al4t3ri
al2t3ro
a1lu
alu3b4
al2uf
alu3g
al1u2k
a2lum
al1umb
a2l1ur
a3lus
2aly
al2zar
al2zau
al3zen
alz2erk
al2zw
a2m
2am.
a3m2a
ama2ba
ama3d2
ama3g
1amal
a4malg
2am4an
1a4maz
2a3mä
a3me
4ame.
2amel
2am4e4n1
amen4spr
amen2t3r
a5mer.
ame3r2a
amera3u
a4m1erf
1a4meri
ame5r2u
2ame1s
a4mesh
2amet
a3mé
2amf
a3mi
ami2k
am4ing
2amir
2amit
2amk
2aml
2amm.
am2mab
am2m1ac
2am2mal
am2mant
am2mar
am2mei
ammes3
am2mid
ammi2e
am2min
4amml
am2mor
am2m1ö
ammu2
amni1
a3mo
2ampe.
2ampen
am4pf
amp2f1a2
2am2ple
2ampo
am3pr
am5pre
amp3s2
2am2s
am3sa
4amsc
am4schl
3am3se
ams3en
am3s2h
am3so
am3sp
am3su
1amt.
am2t1a2
am4tau
am2t1ä
amt3eig
am4tel
am2tem
amter4
am2terh
am2t3ern
am2t1ex
am2tis
am2tit
am2to
am4tou
am2tö
am2t3r
am4tre
am4tri
am4ts
am2t1u
am4tü
2am4tv
2a3mu
3a4mul
am4us
a3mü
a3my
2ana.
2anab
ana3c
2an2ad
ana2der
anadi1
an2ag
2a3nak
an1alg
ana2lin
an2a5ma
2anan
an4and
2ana1s
a5nat.
ana4th
a5n4atm
a2nato
ana4tr
a5nats
an3aug
1a2n1äs
1anb
2anbas
2anbö
2anbu
an3ch
2and.
3an3d2ac
and3ei
an2deng
anden4ga
an2d3ent
ander2e
and3erob
an3des
ande2sc
an2d1ex
and2sas
and2seh
and2so
and4spar
and4spas
and2su
4andu2
an2d1ur
andy1
2ane
4ane.
an3e2c
a3nee
an2ei.
an3eif
3aneig
a4neis
3a2n1e4k
ane4l
an1e2mi
a2nemo
4anen
anen3s4
4aner.
aner2fa
an2erh
a2nerke
4anern
a4nerz.
an2erze
an1eth
3anex
1anf
2anf.
2anfab
3anfä
2anfi
anf3le
2anfors
2anfs
an3f2u
2anfun
4ang.
1anga
2anga.
an2g1ar
2angas
2angd
2ange.
1angeb
an2g1ei
an3gen
an2g3erf
an2g3er2h
an2g3er2w
an2g3erz
2angf
2angh
2angie
ang1l
an2gla
ang3n
ang5na
ang1r
ang3ra
an3gri
2angs.
ang4sto
angt2
1an3h
2anhau
2a3ni
an2i3d
aniel2l
ani3els
ani3ers.
anig2
ani2ka
ani3ke
3a4nim
a4nind
ani2o
an3i4on
a4n3iso
2anj
2ank.
an2kag
an2k1ak
an2kan
an2kei
2anken
ank3erfa
an3kes
2anki
an2kid
".
Definition de_4 : text := "an2klö
an2klu
ank3no
an2k3opf
an2kor
ank1r
ank3ra
an2kras
ank3rä
an2kro
2anks
ank3se
2ankt4
1ankü
1anl
2anlad
3anlag
2anmo
1anmu
2ann.
an3na
1annah
an4nar
an3ne
an4nef
an4nei
an4nene
annen3s2
ann2er
2anns
ann4sp
2annt
2ano.
1an1od
2anof
2anog
2a3nol
ano2la
1a2nom
a3nom.
2anoo
an1op
a2n1or
ano2ri
2a3nos
2a1nö
2anpu
1anr
2anrö
an4same
an3sar
1an3s2ä
an4sb
3anschr
an4sf
an4sg
an3skr
1anspr
1anst
an3s2z
2ant.
ant3ar
anta4re
an3t2ä
1antá
3antei
anteri2
an3tha
1anthr
an3ti
2antie
3antise
anton2
1antr
1antw
2anu
anu3r
a1nü
1anw
2anwi
an2z1ä
2anzb
2anzd
1anzei
anz3elf
anze2n
2anzes
2anzg
2anzh
anzi2d
an2z1i4n
2anzk
2anzm
2anzr
2anzs
2anzt
1anzü
3anzün
2anzv
2anzw
an2zwä
an2zwi
2anzy
2ao
ao3i
a1op
ao2pe
aopf4
a1or
a1os3
aos5ta
a3ot.
ao3t2s
2a1ö
aö4fe
2ap.
ap2a
apa3b
ap4an
a2pe.
3a2pé
a3p2fa
1apfel
2apfes
a3pfl
a2pht
2api
2apl
ap4la
ap3le
ap3li
ap2n
a2pot
ap3pu
2apr
aps2ter
ap3t2
ap5tag
2a3pu
2ar.
a1ra
a3ra.
ar2ab
2ar3abb
ar3abf
ar3abr
ar3abt
2arac
ara3d2
ar3adr
2arak
2a2r3al
a3rale
a3rali
a3ralo
a2r1ang
a2r1anz
2arap
a4r3app
2a2rar
ara2st
ar2asy
4arat
a2r1au
a1rä
ar1äs
1arb
2arb.
2arba
ar2bak
ar2b1at
ar2bau
4arbef
ar2b3ein
2arbek
2arben
2arber
arb3erl
4arbi
2ar2bl
2arbo
2arb1r
2arbs2
arb3se
arb3sk
arb3so
2arb3t2
2arbu
1ar1c
2archl
2ar3chr
ar2dau
arde4i
ar2dop
ar2d3r
a2rea
are3aler
a2reb
aree2
ar1eff
a2reh
ar1ehr
2arei
a3rei.
ar1eid
a3reie
a3reih
areim3
a2rein
arein4b
arein2s
arein2t
a2rele
4arem
are2mi
4aren.
aren4sem
a2rentn
are3r2a
arerau5
arer2e
a2rerei
a2rerg
a2rer3h
a2reri
a2rerk
a2rerl
a2rert
ar2erw
2ares
are3sc
ar2et
are3u
a2rev
arf1r
arf3ra
arf2sp
4arg.
ar3gan
ar2gl
ar4gn
2arg4o
ar3g4r
arg4s
2arh
2ari
ar2ia
ari3en
ari3erd
ari3erg
arin3s4
ar1int
a3r4io
ar2ir
ar4is
ari2su
a3riu
ar2kal
ar2k1ar
ark3aue
arker2
ar2kil
2ark3l
ar2kle
ar2klo
ark4lö
ar2kn
2arko
ar2koa
ar2kor
ark3s2a
ark2se
ark3she
ark4tre
ar2les
ar3mad
arm1au
ar3m2ä
ar2m1eg
ar2m1ei
arm2or
ar2mum
4armü
2arn
ar2nan
arn2el
ar3ni
a1ro
arob2
4aroc
aro4ckeng
ar1o2d
ar1of
aro2i
2a3rol
a2r1op
a2ror
aros3
aro4st
1a2rou
aro2w
2a2r1ö
arö4l
2arp
arr1ac
ar2r3ad
ar2r1as
arre4n1
2arri
ar2r3or
ar2schl
ar3se
arseri2
ar3sh
ar3s4i
ars5ka
ar3spe
ar3sta
ar2tau
2artb
art2e
2ar3tei
arter2e
2artex
ar3t2i
2arto
art3r
art4res
ar2tri
art3ske
art2sp
2artuc
2artü
2arty
2aru
a2r1uh
ar1um
a3rumm
a2rü
2arv
arwa2
2a3r2y
2arza
ar2zau
ar2zä
2arze
2arzi
ar2zö
1arzt
arz4tei
arz4ti
arz2t3r
2arzu
ar2z3w
2asa
a2s3af
a3sag
a3s2al
asal2t1
as1am
as3art
asa2s
as3at
asau4f
a4s3aug
a2sä
as3ät
asbes2
a2sca
a4schec
a4schef
a4scherg
a3s4chi
a2schm
asch3ru
2ascht
a3schu
a4schum
2asd
2ase
a2seb
a2sec
a2s1ef
as1eie
as1emi
a3sen.
ase4na
ase4n3o
a2sen2se
as2ep
as2er
ase2re
a2s3erke
as4es
ase4ta
a2s1ev
a2sex
2asf
asges4
2ash
".
Definition de_5 : text := "a3s2hi
as3hir
2asig
a2s3i2k
2asim
asin2g
as1inn
2asis
2asiu
aska3s
2aso
as1o4f
a3sol
a3som
as1o2p
as1or
a2soz
a2sö
a2sp
as3pan
aspek4to
as2ph
a3spi
as3pik
as3pio
a4spir
2aspr
2as3sa
ass2a3b
ass4aus.
asse3le
ass2i
as3ski
as3so
ass3p
as2spo
as2spr
as4sr
as4ss
as2st
as3stau
as3stei
as3sti
as3str
as3stu
4asta
a3stad
a1st2as
as3tat
a3stä
as3te
ast2el
ast2er
as4t3ese
as4tex
as2th
ast2i3d
as3tie
as3til
as4tl
as3to
as4tof
ast3orc
a1str
ast3re
as3t4ren
as5tri
as6t3ritt
ast3roll
as3tub
2asu
as2ur
asu4s
as4ut
a2sü
aswa2s
1asy
3asyl
2asys
aße2
aß2en3
2at
at1ab
ata2be
at2a3f
ata3g
at2ago
ata3la
a3tam
atan3k
at1apf
ata3ra
at2ast
at1att
a2t1au
at1än
at2c
a2teb
ateien2
at1eig
3a2teli
3a2temg
at2en
ate4na
aten3s4e
a2tep
4ater
ate3r4al
at4ere
atern2
ater3st
ate2ru
4ates
ates2sa
at2eu
a2tew
a4th.
4atha
at3hag
at3hal
at2heb
ath3in.
3athl
a4thm
a4thr
at2hu
at3hü
a3ti
at4ia
ati2kab
ati4k3erw
a4tinf
at2is
ati2sa
ati2se
a4tiso
atis3s
ati4v3erf
3atla
4atli
3atm
4atma
4atmä
4atmus
a2t1ob
a3tol
3a2t4om
ato4man
atom1e
ato4mo
at1op
at1ort
a3to3s
atra4t
a2t3rau
a2t3rä
at3re
at3rin
at3rom
at4ron
at3rot
at3rü
at2sa
at3sche
at2schn
at2se
ats1e2h
at2si
ats1in
at2s1o
at2sp
a4tst
ats3tät
at2su
at3ta
3attac
at4tad
at4t1ak
atta2l
at4tale
at4tals
at4tang
at4tar
at4tau
at2tä
at2t3ec
at2tei
at3t2el
at3thä
4atto
at2tob
3attr
att3rat
at2t3rä
att3s2
at3t2u
a3tub
atu2n
a3tü
atze4l
atz3ela
atz3elt
at2zem
at2z1er
a3tzere
atzer2h
at2z1in
atz3t2
at2z3w
a2u
2au.
2au3a
2aub
au2bab
au2ban
au2b1au
aube4n
au2beu
au2blä
au2bli
au2blo
au2blu
aub2si
aub2str
2auc
auch4str
au2dr
2aue
aue2b
au3er.
au2ere
aue3rei
auer3ö
au3erq
au3ersc
au3erst.
au3ert
aue2s
au4fa
au5fac
au5fah
auf1ak
au5fal
au5fam
auf1an
au5fas
2aufe.
2aufeh
2aufen.
3aufent
auf1er
au4fer2k
au4feu
auff4
auf3ind
1aufla
1au4fn
2aufo
4aufö
auf3ski
auf3t2
2auft.
2aug
au2ga
au3g2ar
aug2e
4augeb
4augeh
4augel
4augl
au4gn
4augr
au3gu
au3h2
2au1i
au2is
2auj
auk3t
aule2s
aul2les
au3lü
2aum
aume4n
au2m3ent
au2m1e2r1
aum3eri
au2m1id
au4mil
au4mit
au2m1o
aumo2r
aum3p2
aum3s2
au4mun
2aun
au3n2a
aun2e
au2nio
au2no
au3nu
a4unz
2aup2
au3pf
2aur2
au1rh
au3ru
aurü3
au2s1ah
ausan4ne.
au2sas
au2sau
2ausc
au4schmi
au2scho
1ausd
2ause.
au2s1eh
2ausen
au2s3erb
au2serf
aus3erk
aus3erp
au2serw
1ausg
au2sin
au2sis
au2so
aus1or
au2spr
1ausr
3aussag
aus2se.
aus3s2el
aus3s2t
aust2a
2auste
au3stein
aust2o
aus5tri
3ausü
1ausw
1ausz
auße2
2aut.
au2tab
au2t1äu
2autb
2aute
au4t1e2l
au4ten2g
au2t3erh
aut5ero
au2tev
2autg
au2thy
2auti
1auto
au4trö
2auts2
2auu
2auv
auve4
2auw
2aux
2auz
auz4w
2a1ü
av2a
avari4e
avas4
ava3t2
avener2
2avi
a2v3r
2aw
awi3e
a2wr
a1x
ax4am
a2xans
ax2e
a2xio
axis1
ay1
2a1ya
ay2al
ay2am
ay2as
a1yeu
ayma4
ays2
aysi1
ays4t
ay5tes
ay2u
az2
a3za3d
3azal
azare3n
az4at
".
Definition de_6 : text := "a3zi
az3t
a3zu
azz3a
az4zab
az4zin
ä1a
2äb
ä2b3l
äb2s
äbte1
ä1ce
ä1che
äche1e
äche4n
ä1chi
äch3l
ä2chr
äch4sa
äch2so
äch2sp
äch2st
ächt4e
ä1chu
ä1ck
ä2da
ädel1i
äde1s2
ä2d1ia
ädi4e
ä2d3r
äd2s
äd5tet
2ä1e
äe2k3
äe4kl
äe2x
ä2f
ä3fe
äfe4n
äf2fl
ä3fi
äfig3
äf3l
äf3r
äf4ro
äf2s
äf3t2e
äft4s3
ä2g1a
1ä2gä
ägd2
äg2e
ägen4e
äge2r3a
äge3s4
ä2g3l
äg2n
ä2g3r
äg4ra
ägst2
äg3sta
äg3str
1ä2gy
äh1a
2ä3he
ä4h1ei
äher3t
ä1hi
äh1in
ähl1a
äh3l2e
äh4l3e2be
äh5ler
2ähm
äh3na
äh3ne
1ähnl
2ähr
äh2rel
äh3ri
ähr5sa
2ähs
2äht
ä1hu
äh3w
2äi
ä1im
ä1is.
ä3isch.
ä1isk
äka2la
äk3l
ä2kle
äk4li
ä2k3r
ä1la
äl4bc
älbe2
äl4bl
älk3
älks4
äl2l1a
äl2p3
äl2schl
äl2st
ält2e
älte1i
äl5tet
ä1lu
ä2m
2ä3ma3
äm4at
ä3me
ämer2s
ä3mi
ämi3en
2äml
ä3mo
ämoni3e
2ämp
ämp5f4e
äm2s
äm3t2e2
ämter3
ä3mu
2än.
änd4e
än2dr
2ä3n2e
äne2n1
äne1s
2än2f3
änft2
4än3g2e
änge2ra
2än2gl
äng3le
än2gr
äng3se
2ä3ni
än3k2e
än2k3l
än2kr
änk2s
2änn
än3n4e2
änner1
2äns
än4s1a
än2s1c
äns2e
2änz
ä1on
äo3s2
ä2p
ä3pa
1äpfel
ä3po
äp2pl
äp2pr
äp2s1c
äp4st
ä3pu
1ä2q
ä2r3a2
är4af
ära4r
är1ä
2ärb
är2b3le
är1c
2ärd
ärde4s
2äre
4äre.
ä2r1ei
ä2r1e2l
4äre2m
är1emi
4äre2n
ä2rene
4ärer
ä2rerh
är2es
4äres.
ä2rese
ärf2s
är3ge
ärg4s
äri2e
ä2r1ind
är1int
är3k4e
ärk2s
2ärm.
ärm3arm
ärm3at
ärme1e
ärm3ent
ärm2s
är1ob
är1of
ä1rö
är3re
ärse2
är2seb
är2s3eh
ärs3er
är2s3i
är3spu
är2st
är3str
2ärt
ärt2e
är2th
ärt4s3
ä2rü
är2zu
är2z3w
ä3sa
2ä3s2e
äse3g
äse1i4
äse5ref
äser2ei
äse2ren
äser2i
ä3s2kr
ä2sp
2äs2s1c
äss2e
äss3erkr
äss3ersa
äss3erw
äs2s3p
äs2s3t
ä2s3t
äs4tc
äst2e
äs5tet
1ästh
äs4tl
äs4tr
ä3su
äß1erk
äß1ers
ä2t3a2
2ä3te
äte3a
äte1e
äte1i
äte3l2
äte2n
äteo2
äte4pi
äter2bl
ät2e3t
ä2th
ä4thc
ät1id
ät1ob
ä2t3r
ät4sa
äts3au
ät2sä
ät2schl
ät2schr
ät2s1i2
äts3l
äts1or
ät2s3p
ät2s3t
ät2su
ät2tei
ätte4n
ät4tr
ätze3l
ät2zw
2äub
äu2b3l
äu2br
äu1c
äu3d
äude3
äuder2
2ä2uf
1äug
äug3l
2äul
2äum
äu2ma
äum3p
äumpf4
äum4s3
äums5t
2ä2un
äun2e
äu3nu
2äu3r2
äure1
2ä3us.
2äusc
äu4schi
äu2schm
äu3s2e
äuse1i
ä3usg
ä3usk
ä3usn
äu2sp
äus2s1c
1äuß
äut2e
äu2tr
ä2vi
1äx
ä3ze
á1
1b
3ba.
b2aa
b3a2ba
2babf
2babg
ba2bl
ba2br
2b1abs
bach5t4e
ba2ck3er
back3s4
ba3de
bade1i
2b1adel
bader4
2b1adl
2b1adm
b1a2dr
ba2du
2b1af
3bah
bah4nene
bai3d
bais2
b2ak
ba4k1a
ba4k1er
ba4k1i
ba4k1l
bak3r
ba4kra
ba4kre
ba2lab
ba2l1ak
ba3lal
ba2lau
baler2
ba2l3erk
balk4a
balke4
bal4l3eh
bal2l3ei
ball4erk
ball3s
bal3tin
bal2tr
2b1am
b2ama
ba5maz
ba4me
4bamt
ban2a
3b2and
band1a
ban2dal
ban2dan
ban2dar
ban4derk
ban4derz
ban2dr
ba3n2e
2banf
b1ang
ban3gl
ban4k1a
ban2kl
ban2kn
ban2kr
ban2ku
2banl
b1anna
ban2o
2b1ans
b1ant
2banw
b1anz
ba2r3ab
ba2rad
bar3ast
ba2rat
".
Definition de_7 : text := "bar3de
ba2rei
barer3ei
barer2t
3bar2s
bar3sc
b1arz
bar3zw
3b2as
ba3sa
ba2sc
bas2i
bas4sa
bas4st
ba2st
ba4t3ent
bat2o
bau1
3bau.
bau3b
bauer2l
bauer2s
bauer2w
bau5fa
bau3fl
bau3f4r
bau3g
b2auk
bau3r
bau3s2k
baus4t
b1a2x
ba1yo
3b2ä1c
3b2äd
2b1äh
b2äl
2b1ärz
b2äs
2bäug
2bb
b3be
bbe4n3
bbens2
bbe4p
bb3le.
bb2lö
b3brec
b3bru2
bb2s
bbu1
2b1c
2bd2
b3da
bdä2
bdän3
bde1s
bdome4
3be.
3bea
be3ab
be3an
be3as
beat2m
be3au
be4au.
b1ebb
3be1c
4becht
2b1e2del
bedi4
be1e2h
bee2l
be3ela
be1en
bee4rei
be1erh
be1erl
be1ert
be1eta
2b1eff
be3g2
be2he.
beh5ri
bei3b
2b1eier
bei3f4
beige4be
beige4ge
beige2l
beige4p
bei3k4
bei3l2a
2b1eime
be1ind
be1inh
bein4hal
bein2hi
bei3sc
beis2e
bei1s4t
beit4e
beit2s
beit4s3k
3bel
b4el.
be3l2ag
be3las
bel3d
be3lec
4be2lek
be2l1en
be2let
bel3f
bel3la
belle4n3
bel3li
bel3om
be2löf
bel3sz
belt2
bem2
3b2em.
3b2e3ma
2b1emp
2bemul
be5nabe
ben3ar
be4nas
be4nat
be2nä
b2ene
be3nei
be4n3end
ben2eu
3beng
be2nid
be2nik
be4nis
ben3n
3benp
b2ens
ben2spa
ben2spr
benst4
3bensz
2b1entb
2bentd
2benteu
2bentf
ben3th
ben4thei
ben5t4r
2b1ents
2bentw
ben3un
b2en3z2
be1o
2b1epi
2bepoc
be1ra
ber3a2d
be2rak
be2r3am
be2ran
bera2s
berb2
ber3d
be2r1e2b
be2reck
be2r3eiw
ber3ell
bere2m
be2rene
ber2er
ber3erk
bere4sc
bere4t
berf4
ber2g3af
ber2gal
ber2gli
ber2hab
beri2d
be3r4in.
berin2g
be3r4inne
be2ri4o
ber3iss
ber3ko
ber3kr
ber3n2a
bern2e
b1ernt
be4roh
be2rö
3bers.
ber5se
bers4k
ber3st2a
bert2a
bert2e
bert2i
berz2
ber3ze
ber2zö
b2e1s
be3sa
bes4abb
bes2am
bes2an
be4sap
be4sar
bes2au
be2sep
be2s1er
be2s1id
bes3sa
bes3s4e
b3esst.
bes3sz
be2stab
beste2
bester2
bes4terh
besti3en
be2s3tol
bes4t3o2r
bes3tos
best4r
be2s3trä
be2s3tur
be2sur
be3s4ze
be3tam
be3tha
be3thi
bet4o
bet2sp
be1un
be1ur
3bev
3b2ew2
2b3e2x
3b2ez
2bf2
bfal2
bfal3t
bfang3s
bf4lö
bf4ri
bf4ro
bf4rü
2bg2
bge3
bgel2e
bge5na
bges4
2b1h2
bi1ak
bi2ar
3bib2
bibe4
biber1
bi2c
bid2
bi3do
bien3s
bieres4
bie2s
biet2s
3bietu
biga1
bik2a
bi2ke.
bi2kes
bi2kre
3bil
bil2deb
bil3der
bi2lei
4billu
bi2lu
2bimp
2b1inb
bin2e
bine4n
b1inf
bin4fo
bin2g3a
bin3gl
2b1inh
bino2
bi2n1ok
bin4ol
2b1int
2b1inv
bi2o3
biri1
3bis
bi3si
b1iso
bi2sp
bis4sa
bis2s1c
bi2st
bi3s4ta
bi1s5tr
bis6tre
3b2it.
b2ita
b2ite
b2iti
bit4r
bi2tu
bi3z2
2bj
bjek4to
2bk2
bk4ne
bk4nu
bl2
2bl.
bla3b4
2b1lac
b3lad
b2lanc
bl4at
b2latt
b2lau.
b3laus4
2b3law
2b1län
b2läse
3blät
b2le
3ble2a
b3leb
3blec
b3leg
4bleh
b4lei.
3bleib
2b3leid
2bleih
b3lein
blei3sc
2bleit
ble3l
blem3p
ble2n
b3lenk
b3lese
2blesu
ble3s4z
3blet
b3leu
2blich
3blick
b2lie
2blief
4blig
b2lind
2b5ling4
b2lis
2blis.
b2lit
b3lite
b2lo
b4lo.
b4loc
2b5loch
b4loi
blo2id
b3los
3b4lum
2blun
b2lus
3blut
blut1o
blut3sc
3blü
2bm
2b1n2
b3na
bnas4
b3ne
b3ni2
bnis1
bo3as
b1o2b
bo3ben
bob3r
bo2c
bo3ch2
bo3d2
bo4dd
boe1
bo2ei
2b1of
".
Definition de_8 : text := "bo3he
boh2ra
boh2u
bo1is
bo2lan
bo2lau
boli2e
bol3le
bol3za
3bon.
bo3n2a
bond1
bon2da
bon2de
bo2ne
3bons
boo4l
boo2ti
b1op
3bor.
bo1ra
bor2an
bo2r3as
bo2rau
bo4rä
bor2da
bor2d3r
bo4rig
bor3m
bor2s
b1ort
bor2ter
bor4t3rat
bo4ruh
bo2sc
bo3se
bo4s3p
bos3t
3bot
bot2e
bote3n2e
bo3th
bot2st
bot3t
bo3v
b1oz
bö2b3
2böf
2b1öl
2bp2
bpa2g
b3pf
bp4rä
bpri2
2bq
b2r2
2br.
b4ra.
2b3rad
2b4rah
b4rak
bra5ka
br4al
b4r4am4
brast4
2b3rat.
brat3er2
bra4terg
2bratg
2bräd
brä4u
2bre.
4b3rechte
2b3red
2b3ref
2breg
b3reic
b3reif
b3reiz
2brek
b4ren.
2b3rent
2breo
2b3rep
b4rer
b4res.
b3rese
b3rest
bret4t3en
2b3reu
b4rez
bri2da
brie2fa
2b3riem
b4rien
bri2er
b3ries
2brigk
b4rik
bril3
b4rina
2b5rind
b4rio
b4risc
b3ritt
b4riz
brob2
2b3roh
2b3rol
bro4ma
b4ron
2b3rost
bro4tei
bro4tr
brot3t4
2b3rou
3brö
b4ruc
2bruf
b4rum
2b3rund
brun4e
bru2s4
brust1
bru2th
b4ruz
3brü
4b3rüb
2b1s
b2s1ad
bs2am
bs3amb
b4s3amt
bsau2r
b4s3är
b3s2äu
b3sc
bsch2
b4schan
b4schef
bs2chi
b5schl
b4sco
bs2cu
b3se.
bse2b
b3sel.
bse2n1
b3sen.
b2s1ent
bs1erf
bs1erg
bs3e2r3in
bs1erk
bs1ers
b3s2es
b2sim
bsi4t
b4ski
bs2ku
b2s1of
b3s2oh
b3sol
b4sop
bso2r
b2sö
bs2p
b3s4pi
bs3po
bss2
bs2t
b4st.
bst1a2b
bst1ak
bst1al
bst3an3k
bs4t1as
b3stä
b5stär
bs3tät
bst3emi
bst1er
b3s4tet
bst1h
bst3ink
b2stip
b3sto
b4stob
b4stod
b4stor
b3stö
bs3trau
b2s3trä
bs4tri
bst3ro
b3stü
b4stüb
b2s1un
bs2zep
bs2zi
b4szü
2bt
b3t2a
bta2s
btast3r
b3te
b2t1h
bt2i
bti2s
bt4ra
btran2
bts2
b3tü1
buche2
bu2chec
bucher2
bu4ch3er4s
bu2chi
buch3sp
bu2e3
bu4fe
bug3
bu2gr
bul2l3a
2bumf
2b3umk
2buml
2b3umr
bun4a
bun2d3er
bunde2s
b1une
bung4
b3un3gn
2b1unh
bur1c
b2ure
b2urg
burg1a
bur2gan
bur2gar
bur2gin
bur4gr
bu3r2i
2burn
b3ursa
burts3
bu3ru
bu2sa
bu2sc
bus3cha
bu3sche
bu4schei
bu4sch3el
bu4scheu
bu3schu
busch3w
bu3shi
bu2sin
bu2s3p
buster2
bu2su
but2a
bu3tan
buto3re
2büb
bü4bc
bü1c
bügel3e
2bv
2bw
bwur2
b2y1
bya2
byo2
by3p2
bys2
bys4t
by5tau
by2te
2bz2
bzeit1
bz4wa
1c2a
ca3bl
3ca2c
ca2e3
ca3g2
ca1h
cal2a
cala3b
cal3t
3cam
2can
cana3
ca2pe
ca3r2a
car3n2
car5nu
carri1
car2s
ca3s2a3
cas5to
ca3t2h
ca1y2
cä1
cäs2
2cc
c1ce
c1ch2
c2d2
c3do
2cec
1ced
ce2dr
2cef
2ceh
ce1i
ce3in
2cek
3cels
cen3a
cens2
ce3nu
cen3un
ceo2
1cer
cer3a
cere1
cere3u
cer2i
ce2ris
ce1ro
ce3s4h
1cet
ceta4
cet1am
ce1u
1cé
cg4re
c2h
2ch.
2chab
ch3a2b3i
cha2ck
2chaf
2ch1a2g
2ch1ak
chal4l3ei
chan4a
3chanc
ch1ang
4chanl
ch3ansa
4chanz
3chao
4char.
3chara
3chard
3charta
cha2sc
chasi1
1chato
4chatt
ch3austr
chau3t
ch1äh
ch1ärm
ch1äs
1châ
2chb
2chc
2chd
cheb4
ch3e2ben
che3bl
ch3echt
ch1edi
che2el
1chef
3chef.
che2fer
3chefs
2cheh
2chei
ch1eim
2chelem
che2ler
3chemi
2chemp
che2neb
che2nid
che2no
2chents
2chentw
che2r3a
2ch3erbs
2ch3er2de
2ch3erfa
4chergeb
".
Definition de_9 : text := "2cherke
cher4zie
ch3ess
ches5t
2ch1eta
2ch3e2x
1ché
2chf
2chg
2chh
1chia
chi3na
4chind
3chines
2chinf
2chinh
2ch1ins
2ch1int
2ch1inv
1chip.
1chiru
2chiso
2chj
2chk
2chl2
chl4a
ch2le
chle2i
ch3lein
ch4len
4chli
ch2lu
2ch2m
2chn2
chn4a
chn4e
chner4ei.
2chob
cho3ch
cho4f
ch1off
cho5fr
chof4s
ch1oh
cho3l2a
ch1orc
ch1ori
ch2os
ch3öl
3chör
2chp
ch2r2
2chr4a
ch3rad
2chre
ch3rh
4chrit
3chromo
3chron
ch5ros
ch4ry
2chs
ch2stal
2cht
ch4tb
ch4tg
ch4tm
ch2truh
ch4ts
chts3trä
ch4tw
2chuf
2chuh
2chum
2ch1unf
2chunm
2chunt
2chur
ch1urs
2chut
chut4t
2chü
2chv
2chw
2chz
ci2al
ci1c
ci1es
c1ind
cins2
c1int
ci2s1
1ci3t2
c2k
2ck.
ck1a
1cka.
2cka2b
2cka2c
ck2ad
1ckag
ck2age
2ckal
cka4m
2ckan
2ckap
cka4r1
1ckard
1ckat
ck1ä
2ckb
2ckc
2ckd
1cke
2cke2c
2ck1ef
4ckeff
2ck1eg
2ck1eh
4ck1ei
3ckem.
2ckemp
cke4na
4ckensem
2ckentf
4ckentw
cke2ra
4ckeremi
4ckergeb
2ck3er2hö
ckerk4
2ckerke
3ckerl
ck2ern
2cke2ro
2ckerz
3ckerzen
4ckese
ck2et
4ckex
2ckf
2ckg
2ckh
1cki
2ck1i2d
ck1in
4ckinn
4ckint
3ck4is
2ckk
2ck3l
2ckm
2ck3n
ck5nac
2ck3o2
cko4f
cko4p
ckos4t
ckos6te
ck3ö
ckö4f
2ckp
2ck3r
2cks
cks2al
ck4ske
ck4spen
2ckt
ck3te
ck3t2i
1cku
2ck1uh
ck1um
2ckuni
2ckunt
2ck1up
2ckü
2ckv
2ckw
1cky
2ckz
c2l2
cle4a
clet4
clin2g
cli2p1
clo1c
clo2ck
1clu
c2m2
c3me
c3mu
1c2o
co2c
co3ch
co2d2
co4de.
co3di
cof3f2
co2ke
cola3
co2leu
co3l2o
co4mp
com4te.
comtes2
con2ne
continuati6
co2o
coo3p
co3p
co4ps
co1ra
4corb
cor2da
cor3de
co4re
co5ree
cor3t
cos3t
co4te
cou3si
cô2
cô4te
2c2p
2cq
1c2r2
c4ras
c3rä
cre2
cre4me
3crew
2cri
2cry
2cs
cs2a
cs2f
cs4fr
c2si
cst2
c1s2ti
c1s4tr
2ct
cti4o2
ction3
ctur4
1c2u
2cua
cu2e
cup3
cu4pa
cu4p1e
cu4pl
cu4pr
cussi4
c2v
c3ve
2cx
1cy
1ç
1d
3da.
da1a
2d1aal
2d1ab
d3a2bak
d2abä
d2abe
d3a2ben
d3a2bi
da3blu
d3a2bo
dab4ra
da2bri
da3brie
d2ab4rü
d1ac
dach3a
dache4
da2cho
dach3s
2d3achse
2d1ad
da2de
da2do
da2d4r
d1af
da5fab
2da4ff
da3f4l
dafo4n
d1ag
dagi4
dag2o
da1h
dah3l
dail3
da1in
2d1air
da1is
da4kro
2d1alar
dal3b2
4d1all
da2lop
da3lö
2d1alp
d1al3t
2dalte
da1lü
3dam
d1a4mei
d1amma
4d1ammä
damo3
d2amp
damp5f4erf
4d1amt
3d2an.
d1ana
da2nan
da4n4at
2danb
dan2ce.
d1and2
2danda
d2andy
3dane
4d3anei
2danf
d1ang
2danh
dan2kl
dan3kla
dan2k1o
dan2kr
2danl
d1ann
2danna
d1a2no
2d1ans
danti3e
2dantw
2danw
d1anz
d2anz.
2danzi
2danzü
2d1ap
d2apa
d2aph
da2po
da3pos
4dapp
d3apte
2daq
da4r1a
2darb2
2d3arc
dar2d1e
2d1area
daren1
dar3g
d3a2rist
dark2a
3darl
dar2m1a
dar2m1i
dar4mun
da2r3o
d1arr
2darres
3d2ars
2d1art
dar2th
4d3arti
dar2tr
da2ru
d1arz
da1s2
da3sh
d1asp
das3s
2d1assi
2d1as4t
da2s5tr
dat2e2
da3tei
4d3a2tel
date4n
da2th
2d3atl
4datm
d3ato
dat2st
2d3atta
3daub
2daud
dau3e2
dauer3e
".
Definition de_10 : text := "daue4rei
2d3au4f
2d3aug
2dauk
da3unt
2d1aus3
dau2ß
3daw
d1ax
3däc
2d1äg
2d1äh
2d1ämt
dä4n3a
2d1änd
2d1äp
2däq
2d1ärz
2d1ä2u
dä3us
2däx
2db2
dbau2c
dbauch3
dbe2e
db4la
db4ri
dbu2c
2dc
d3ch
2dd2
d3da
ddar4m1
d3dä
d3de
d3dh
dea2d
3dean
de3ar
de3as
de3a2t
deb2
deb4r
3debü
de1c
de4ca.
de2cka
deco3
2d1e2del
de2dit
2dee2
de1eb
de1e4g
de1em
dee4n
de1er
de1es
def4a
de2fa.
2d1eff
def4l
deg2
degene3
de3gl
deh2a
dehe2
3dehn
de3ho
2d1ehr
d1ei
3d2e4ic
de3i2den
de3il
3d2eim
4deime
dein2d
d2einfr
4deinr
d2e3inse
de3inst
dein4sta
dein4sti
4d3einw
de3io
2deise
d4e1ism
dei2sp
2dekz
de2l1ac
de3lak
dela4t
del3ate
de2l3aug
del3änd
del3b2
del3d
del1ec
3de3leg
delei2g
2delek
2delem
de2len
deler2
deler4r
2delf.
2delfm
3delik
del2la
dell3auf
del2l1ä
delle2
del2l3eb
del2lei
del2l3er
de2l1ob
de2lop
del2se
del2so
del2s3p
del3t4
dem2ar
2d1emb
dement2
de4mentg
dem3ents
demi2e
2d1emot
2d1emp
d2emu
d4en.
dend2
de2n1e2d
de4n3end
de2nep
2denerg
de3n2es
d3en2ge.
de2ni
denk3li
dens2am
den4scho
2den2sem
den2ser
dens3tau
den4stie
2dentd
2dentf
2dentg
den3th
2dentn
2dentw
2dentz
den4zerf
den4zers
de2ob
2deol
dep4l
2depoc
d4er.
dera2b
der3af
de2rak
dera2n
de3rand
de2r3ap
dera4s
de3r2ass
der2bl
2d1erbs
2derdb
de2r1e2b
de2reck
der3eis
3d4erem
d4eren
de2r3end
3d4erer
der2erf
der3erl
derer3n
der3ero
derer2t
3d4eres
der3ess
de2r1eu
derf4
d4erfl
d3erheb
d2erhü
de2r3id
de4rinnu
derin4teg
der3k2
d3erken
2derklä
3derlan
d2erm
de4rn
de1ro
derö2
der3r
de4rs
der3san
2dersat
derst2
der3stau
dert5ende.
derter4e
dert4ra
4der4trag
de3ru
de4ruh
de4rum
2d1erz.
d3erzeu
2d1erzv
d2es.
de2sa
desa2g
des1ah
de4sam
de2s1än
de2seb
de2se2h
de2sei
2d1esel
des3elt
de3sem
de3s2end
desen3e
de2set
de2sin
de2s1o
de2s3p
de3spe
de3spu
dess2
dess4e
dess4t
dest3alt
des4temp
des4terg
de3stern
des2tex
de1sto
dest3rat
de3stri
des2tum
de2su
des1un
3desw
det2
de3ta
deten4t
2d1e2th
2d1etw
2d1eul
de1un
de1url
de3us
de4ut
2d1e2vid
devil2
de1x4a
de2xer
de2xis
2dexpe
2dexpo
2df2
df4la
df4ru
df4rü
2dg2
dgas3tr
d2ge.
dger2
d2gesh
dge2t3a
dge4t1e
2d1h2
dha1s4
d3hu
di4aa
di4ab
di4ad
di4ae
di4af
di4ag
di4aj
di4ak
di4ale
di4am
di4ao
di4ap
di2a3s4
di4at4
di5at.
di4au
di4av
di4az
di3äre
3dic
di1ce
di3chl
dicht4er
di4ck3el
4d3i2co
3dida
d1ide
2didee
di2den
2didy
di2e
di3e4d
di3en.
di3end
die2neb
diener4l
di3e2ni
dienst3r
die2p
di3ers.
dies1c
di3e4th
3dif
di4ff
dige2s
di4gk
dig4n
dik2a
dil2s3
2d1imb
2dimp
din4a
2d1ind
di3n2e
2d1inf
di4ng
2d1inh
di3ni
2d1inj
2d1ink
di4nn
2d1ins
2d3int
2d1inv
di2o3b
di2odi
di4ok
dion3in
dion3s4
di3ora
d4ios2
dip2
di3pt
d1i2ra
di4re.
di2ren
di5rig
di2rin
di2ris
2d1irl
2d1irr
di2s1a2
2d1iso
di2sp
di3s4per
2d1isr
dist2
di1s4ta
di2s3te
di2stra
di4sz
di2ta
dite1c
di2t3erl
di2t3erm
di2t3ers
di3the
di2tin
di2tob
di4t3r
dit3s
di2t1u
di5vid
di3z2
2dj
d2jar
2dk2
d3kl
dk4le
dk4na
dk4ne
2d1l2
d3la
dlap4
d3le
dle2ra
dl3f
dli4f
".
Definition de_11 : text := "dl3m
dl3s
2dm2
d3ma
d3me
2d1n2
d3na
d3ne
d3ni2
dni3g
dnis1
d3nu
do3a
doa4k
2d1ob
3d2oba
d2obo
dob2s
d1of
do4fe
2d1oh
do3ha
dole4
dol3l2
d3o2ly
3dom
do4mal
do4mar
domen1
do4ming
4domn
do4mu
don2a
do3nan
doni1e
4dony
do2o
do3op
2dope
2d1opf
do1r4a
2d1orc
2d1ord
dor2f1a
dor2fä
dor2f1i
dor2fl
dor2fo
dor2fr
dor4f3u
2d1org
d2orn
2d3orna
2d1ort
dor2ta
dor2t3ei
dor2ter
dor4tr
dos2
d2os.
2dosm
dos3s
dost1
d1ost.
dost3a
dosten2
dos4ti
do4stu
do3ta
do3th
do2tof
do3un
dow2s
d2o1x2
d1ö
dö2d
dö4fe
döl1
döll2
d2ön
3d2ör
dö2s1c
2dp2
dpass1
dpas2se
d3pf
d3po
dpol4n
dpost1
d3ps
2dq
d2r2
3d4ra.
3d4rab
4d3rad
2drahm
2d3rak
3d4ral
d4rama
d3ramm
d3ramp
d3rand
dran3k
2d3rast
dr4at
dra4tin
2draub
2d3rauc
d4rauf
2draum
2draup
2dräd
d4räh
2d3rät
2d3räu
4dre.
2d3rea
d4rea.
d4reas
3d4reck
2d3ref
4dreg
3d4reh
dre2ha
dr4ei
2d3reic
3d4rei3e
d4reiv
d4rej
4drem
4d3ren
d4reo
4d3rep
4d3rer
4dres.
d4resc
dres4sei
dres4ser4
dres2st
d4rew
2drez
2d3rh
d4ria
4d3ric
d3rieg
3drif
4d3riff
d4rift
4d3rind
2d3rip
2d3risi
2driss
2d3ritu
2d3rob
d3rod
2drogg
2drohr
3d4rohu
dro2id.
2d3roll
2d3rose
d4ross
2d3rost
2d3rot
2d3rou
2d3rov
d3row
drö2sc
3d4ruc
2d3rud
2d3ruh
dr4un
2d3rut
drü3b
drü3cke
3d4rüs
2d1s
ds3a2b
d2s1ad
ds1al
d2salk
d2sall
d4s1amt
d2san
ds3ane
ds3assi
d2saut
ds1än
ds2äu
d2schef
d2schin
d3s4co
d2scr
d2s1e2b
dse2e
d2s1ef
ds1ehr
ds2eign
d2sein
d2s1emb
dsen3er
d2s1eng
dsen3s
d2s1ent
d2s1erf
d2s1erh
d2s1erk
d2s1erl
ds1err
d2s1ers
d2s1ert
d2serz
dse4t
d2s1eta
d2s1ev
d2sex
d3sha4
ds2hak
d4shal
d3sho
d4shor
d2sid
d2s1im
d3s2inf
ds2kal
d3s2kel
d4sko
d4sli
d3soh
d2sop
dso2r
ds1ori
d2sö
d2spat
d2spä
d2speri
d2s3ph
d3spi
ds2por
d4sporto
d3spri
d2spro
ds2pu
dss2
dss4t
dst2
d4stag
d2stas
ds3tauf
d2s3täti
d2ste
d3stec
d3stei
d4steil
d3stell
d4stem
d4sten
d3s2tern
ds2ti
ds4til
ds4tip
d2stoch
d3strei
d3s4tro
ds2tur
dsu2m
d2sun
ds1url
ds2zen
2dt
dta2be
d3t2ac
dta2d
dt2ag
dta2n
dt3ane
d3t2as
dt2ax
d3tea
dt2et
d2th
d4thei
d3to2
d4tob
dt2op
d3tö
d4tök
dt3r
dtran2
dts2
dt3sa
dtt4r
dt2un
d3t2ur
d3tü
d3ty
dua2ler
du1all
du1alv
du1ar
du2b3li
du1ce
2d1u4fe
duf2ter
duf4to
duf2tr
d3u2g
2d1uh
du1i
du2in
du2kr
dul3art
2d1umb
2dumd
2d1u2m1e
2dumf
2dumg
4d3umk
2duml
d2ump
2dumr
2d1ums
d2ums.
2d1umv
du2n
2d3und
2d1unf
dung4
d1unga
2dungl
2d1uni
dun3ke
dun2kl
2dunr
dun2s
2dunsi
dunst3r
2dunt
2dunw
2d3unz
du1os
dur2
dur3au
durch3
2d1urk
2d1url
2d1urn
2d1ursa
2d1ur3t
du2schn
du2schr
du2sch3w
2düb
d3über
düns3
2dv2
2dw
dwa2
dwer3te
dwes2
dwest1
dy2le
dym3
3dyn
dy2s
dys1c
dy4sl
dys3t
2dz2
d3zw
dz4we
2e1a
ea2be
ea2b3l
ea4br
ea2c
eadli4
e3a2dr
ea2g
ea3ga4
ea3g4l
ea4ka
eakt2
e2akta
ea2la
e3alei
e4alem
ea2l3ent
ealen2z
ealer2
e3a2lerg
e3alex
e3a2lin
eal1o
ea2lon
ea2lop
e2alti2
eal3tr
ea2l3u2
eam3
".
Definition de_12 : text := "ea4ma
e2am4e
ea4m1o
eamt2
e3anf
e2ano
e3ar.
ea2ra
ea3rat
e2are
e4are.
ea2r1ei
ea2rene
e4arer
e4ares
e3ark
e4arn2
ea2ro
e3arz
e2as
e3a4sc
easin4
ea4sp
eas3s
eate2
eat4mes
eat2mu
eat4mun
ea4to
ea5tri
eat3s2
e3at3t2
e4atu2
e3aue
e3auf
eau4fe
eau4fl
e4aufo
e4auj
eau3n
e2av
e2az
e1ä2
e3äh
2eba
e3bak
eba2p
e3bän
2ebec
ebe1er
ebein5h
eb2el
ebe2ler
ebe2lo
ebels2t
ebel3ste
ebenen3
ebe2ras
ebert4
ebese2
ebe2s3eh
ebe2so
2ebet
ebet4s
2ebh
2ebi
2ebl
e3blä
eb3le.
eb3ler
eb4leu
e3blie
eb3lo
e3b2lö
2ebo
e2bob
ebot2
ebö2s
2ebr
eb5rah
e3brau
eb2s1
eb4sche
ebse2
ebs3p
eb4spanne
eb3stan
ebs3tau
eb4stät
ebs3t2h
ebs3ti
eb3str
ebs3treu
2ebu
e2bunt
ebu2t3
eby4t
2e3ca
2e3ce
ech1am
ech1ä
2e1che
ech1ei
ech2en1
echer4fa
e4ch3erzi
e1chi
echi3e
ech3l
ech3m
ech3n
e2cho.
ech3ö4
ech3re
e1chri
ech3sel
echs2er
echst3re
ech3tab
ech3t2ei
ech3ter
ech4terh
e1chu
ech3w
2echz
e1ci
e4ck.
ecke4n1
e2ck3err
ec4kl
e4cks
eck3ser
2eckt
3eckty
2e1cl
2eco
2e3cr
ec1s
2ect
ed2a
ed2dr
ed2e
ede2al
e3dee
ede3n2er
edens1
eden4sa
eden2se
eden2sp
eden4sta
edeo2
ed4e2r
eder3a
ede3rat
ederer2
eder3t2
edes2t
ed2i
2edip
edi4teng
e3d2o
ed2ö
e3drei
ed4rö
ed2sal
ed2seh
ed2s1es
ed2si
ed2s1o
ed2sp
ed2sto
ed2s3tr
ed2s1u
edun3
edund2
edy3
edys4
2ee
ee3a2
eeb2l
ee3bs
ee1c
ee4ce
ee2cho
e1e2ck
eede3
eede1s
eed3s2
ee1e2
e1eff
eef4l
ee3fo
eeg2
eeg4r
e1ei
ee2i3e
eein2se
eei4sc
eeis3s
e2ela
eel2e
e3e2lek
eele4n
eel2ö
e2e3m2a
e1emb
e1emp
eena2g
e1end
een1e
e2e3n2i
ee3n2o4
een3s
e1ent
e1en2z
ee3o2
eeo4l
e2ep
ee3po
e1erbt
e1erd
ee3r2e
eer3ei
ee4r3en4g
eere2s
eere2t
eer3eti
e1ermä
ee1ro
ee1rö
e1eröf
eer2ös
eer3sh
eer3str
ee3r2un
e1erz
ee1s2
ee3sh
ees3k
ee3sp
ee3s4t
e2et.
ee3t2a
ee4tat
ee2th
eet2i
ee3t4r
ee2tu
ee1u
eeu4f
eewa4r
e1e2x
e2f1ad
e2f1a2g
e3fah
ef1ana
ef1ar
e2farc
ef3arm
e2fat
ef1aus
2efä
ef2äl
e2fäu
2efe
e2f1e2b
efe2l3ei
ef1em
efe2n1
3e2f1ene
e2fent
efer3f
eferin4d
efeuil2
3effek
1effi
ef2fl
2efi
ef1id
e2f1ins
efi2s
2efl
ef4le
ef5le.
e3f4lu
e3f4lü
2ef2o
2efr
ef4reih
ef3rol
ef3rom
ef4ru
ef4rü
efs2
efs4c
ef3so
ef3sp
ef2tan
ef2tei
ef2tro
2efu
2efü
ega4m
e3g2anz
e3ge
eg1eil
egein3
ege2lan
ege2l3au
ege4l5ei4er
ege2ler
ege2lo
eg2en
ege4n1a2
egene3ra
ege4nero
egen3z
eg2er
ege2ra
ege3stal
ege2s3tr
ege1u
e4gex
2egi
2egl
e2glo
e2glu
egmen4ta
e2gn
eg3nä
eg3ni
ego3p
egori2e
egs2ag
eg4sal
eg3se
eg4sei
egs2e3l
eg3si
eg4sk
eg4sm
egs2of
egs4pe
eg4ss
egst2
eg4sto
eg2th
egung4
egus3
eg5ver
2e1ha
eh1ach
eh1ad
eh2ade
e3h2ah
eh2al
ehalt2s
e3hand
e2harz
e3haut
e1hä
e1he
eh1eff
eh1ein
e3helf
eh1elt
e2hense
e2h3ente
ehen6tr
ehe3o
1e2hep
2eher
ehe1ra
e2h1er2f
e2h1er2l
ehe3str
2e1hi
eh3im
eh1lam
eh2l3au
eh1lä
ehl3ein
eh2lent
eh5l2er
ehlo2
ehl1or
eh2lö
ehl2se
ehl4sl
ehls2t
2ehm
eh4mant
ehme2s
eh3mu
eh3na
eh3no
2e1ho
eho4f
eho2l
eh3oly
".
Definition de_13 : text := "2e3hö
ehö2rer
eh2r1a2
ehr1ä
ehr1e2c
eh2rei
eh2rel
ehr4ern
ehre3s
eh4rin
eh1roc
ehr1of
eh1rö
ehr3sch
ehs2
eh3sh
eh3sk
ehs4p
ehst4
eh1ste
2eh3t2
eht3h
eht4r
eh4ts
2e1hu
e2hum
eh1unf
e2huni
e1hü
eh3üb
eh3w
e1hy
2ei3a2
eia4t
ei2bar
ei2bli
ei4blu
eibu4t
ei2b3ute
ei1ce
ei2cho
e2id
ei2d1a
ei4db
ei4dl
2eidn
ei3dr
ei1e
eie2b
eie2d
ei3e2l
eie2m
4ei3e2n1
eienge4
eien3s
ei3es
eie2t
4eif.
ei3flo
1eifr
eif3t
2eig.
2eiga
eig2ar
2eigä
2eige.
2eigeb
2eigeh
2eigeno
3eigensc
4eig2er
2eiges
2eigew
2eigi
1ei2g3n
ei2go
ei2g3rat
2eigre
2eigrö
2eigru
2eigrü
2eigs
2eigt
2eigu
2eih
ei2hum
ei2kab
ei2kak
eik4am
eik2ar
eik2i
eik2l
ei3k4la
ei3klä
eik2o
e2il
4eil.
ei4l3ab
ei2lam
eila2n
ei2l3ane
ei2lang
ei2l3anz
ei2lar
2eilb
eil3d4
ei2lein
eile2n1
ei2let
eil3f4
eilm2
ei2lob
eil2ö
2eim.
ei2mab
ei2m1a2g
eim3all
eim3alp
ei2m1or
2eimö
2eimp
eim2p4l
eim3sa
ei2mur
e4i2n1a
ei4na2d
ei4nae
ei4n3an
ei4na4s
ei4n3at
ei2n1ä
ein3d2e
ein4derk
e1indu
2eineb
einen2e
ei4n3en2g
einen2s
ei4nen4se
ein3erbe
ei2nerf
ei2nerk
ein3er4la
ei4ness
ei2neu
ein4fiz
2einfo
ein4fo.
ein4fos
ein3g2
3einger
ei4nh
ein2hab
e2inhä
ei2nie
e1in2it
ein3k4
ein4karn
3einkä
e2inl
ein3n2
3einna
ei2n1o2
1einri
e4insa
3einsat
e2insc
3einschä
ein4stal
ein2teg
ein4terv
3eintop
3eintö
3einträ
1einu
ein3zw
ei3o
eio2s
ei3p
eip2f
ei4pp
ei4pz
2eir
eir2c
ei3re
e1irr
e4is.
ei2sa
ei3sas
ei4sau
ei2ser2g
ei2s3er2l
ei4s3erst
ei2s3erw
1eisho
ei3s2ky
ei2so
eis4pe
e2iss
eist4e
ei1sto
eis4tol
ei2sum
ei2sur
1eiswo
e2it
ei2t1a2b
ei2tal
ei2t1an
ei2tap
ei2tar
ei4tat
2eitä
ei2tän
ei2teli
eite4ra
ei4tess
eit1h
ei2tin
ei2trau
ei4tro
eit3t4
4eitu
ei4t1um
ei2t1ur
eit3z4
eiv2
eive4
ei2zar
eiz1in
2ej
e3ju
2ek.
2e3k2a
1ekd
ek2e
e3ke.
e3ke4n
eker3z
e3kes
e3key
e3ki
e3k2l
ek4lo
ek4na
ek4ne
ek4ni
ek4nu
e3k2o
ekor2da
2e3kr
ek4s3p
2ekt
ek2tan
ek4tank
ek3t4ante
ek2t3at
ek2t1ä
ek2te2l
ek2tep
ekt3erf
ekt3erk
ek2t3er2z
ekt2o
ek2t3o4b
ek5tri
ekts2
2e3ku
ekur2a
e3k2w
1ekz
e1la
el2abt
el3abu
ela2ck
e2l1af
ela4h
e2l1ak
e2l1a4m
e4lame
el2a5mi
el1ana
e4landa
el1ank
e2lanm
e4l1ans
e2l1ant
e4lanw
el1anz
2elao
e2l1ap
e2l1ar
el3a2ri
ela2s
el1a4si
el1asp
ela3su
2e1lä
2elbil
2elbr
2eld
elda2r
eld3ari
eld2arm
el2d3erf
el2derl
el3dern
elder2s
eld3erst
el3des
elds2
4e3le.
2e3lea
elea2r
2eleb
4ele2c
el1ech
1elefa
eleg3s
4eleh
el3ehe.
2elei
e4l3ei4ern
e2l1ein
e3leine
e3leit
el1eiw
1elek
2eleko
e2l1el
ele3ler
1e2lem
2e3lem.
e3lema
el1emb
el1e2mi
e3lemm
4el1emp
2e3len.
elen2k3l
e2lense
e2l1ent
e3lep
4eler
e3ler.
eler2a
el1erd
el1erf
e2ler2fa
e2lerfi
e2lerg
el1erh
e2l1erk
e2l1erl
eler2la
e2l3ernä
eler2ö
e2l1err
el3eru
el1erw
e2l1ess
eles2t
e2l1e4ta
el2eth
ele2ti
elet2ta
el1e2x
e3lex.
1elf.
elf2er
1elfm
elf4r
1elft
elgi3
el3g2l
elg4r
e2l1id
2e3lie
elif3
2elig
e2lim
elin3a
el3inka
eli3no
el1ins
4elis
2elk
el2larb
ellar4t
ell2ei
ell3ein
ell3eis
el4lel
ell2er
eller4fas
eller5g
ell3erh
el3les
el2lim
1ellip
".
Definition de_14 : text := "el2lor
ell2ö
ell3sp
elm2e
elm3ein
el3na
2elo
e2l3oa
e2lof
elo4fe
e2lol
e2lom
e2lonk
el1opf
e2l1or
e3lore
elo2ri
e3lot
e3l2ov
2elö
elö2s
el3p2
el4sb
el2s3ein
el3sen
els4tri
el2sum
el3tar
elte4m
el5ten.
el4t3ent
elter4b
elter2f
elt3erh
elter2k
elter4le
3elter4n
elt5ero
elter2s
elte4s
el4tesc
elt3eth
el3the
el5tri
el4ts
elt3se
2e1lu
el1uf
e2l1um
e2l3u2r
elu2s
el3use
elu2t
el3ute
el3uto
e1lü
2ely
e2lya
el2zar
el2zene
elz1in
e2m3a2b
em4ak
e2m3alar
e2m1alk
em3anf
e2m1ano
em1ans
1emanz
e4m1a4sp
em1au
2e3mä
em2äh
1embo
1embry
em2dä
emd1r
em2dra
2eme
e2m1e2b
e2mef
eme2i
e2mele
em2en
emen4gel
emen2t3h
e4mentsp
emer2i
e2m1er2l
em1erw
3e2meti
em1i2d
emi2ei
e2mig
emik2
em1im
2emin
emi3n2a
e3mind
em1int
1e2mir
4emisc
emi4scha
emi3tr
emma3u
em2m1ei
e2mof
emo3s
1empf4
em3pfl
em3po
empo1s
em2sa
em4scha
em2sim
em2spr
em2st
ems5tr
ems6tra
em3t2
1e2mul
3emuls
emu3ne3
e3mur
2emü
e2na
4ena.
e4na2b
en3aba
en3abo
4ena2c
en3ache
e4n1ack
enadi4
e4naf
4enah
en3ak
ena4ke
en1al
e4nalb
e3nale
ena3l2i
e4nalk
e4nalm
e4nalo
enal3p
enal4s
4en1am
ena4n
e4nand
en3ane
e4nant
e4nanz
en1ap
ena2pa
en3are
en3ark
4enarm
en3aro
en1as
ena4sc
e4na2st
2enat
4e5nati
e4natl
enat4s
e4n3att
4enatu
e4nau4f
en3aug
e5naui
e4n3aur
e4nausta
e4naut
e4n1ax
en1a4z
en1ä
en3äb
en4äc
e2när
en2ä3s
en3äst
2enbew
2enbom
en2ce.
end2ac
en2dal
en2dang
4endef
2endel
ende2lä
en2d3es4s
en2dex
en2did
en3d2ort
en2dost
en3d4rü
end3s2au
end3s2l
end3s2p
end3sz
en3d2um
en3d2ü
2ene.
en3e2ben
en1e2c
e2neff
ene3hen
en2eid
e3neien
e4neige
e4nein
e4neis
e2n1el
ene4le
2ene2m
e2n1emi
2enen
e4n1ent
en3envi
en1ep
4e3ner.
e2n1erd
e2nerf
en2erfr
1energ
3energi
e2nerh
e2nerk
e2n1erl
e2nermi
e2n3ermo
4enern
e2n3erne
ene2ro
e2n1erp
e2n1err
e2n1ers
4eners.
e2n1ert
en2ert.
e2n3eru
e2n1erw
2enes
e3nes.
e2n1e4sc
e2n1esk
e2n1ess
en1eta
e2n1eth
en1eul
e2n1e2v
e4ne2x
en3f
en4fb
en4ff
en4fg
en4fh
en4fk
en4fm
en4fp
en4fs
en4ft
enf2u
en4fw
en4fz
1engad
1engag
eng2al
en3geb
enge3r2a
eng2i
en3gn
en3g2o
1engp
eng4ra
eng3se
e3ni.
2e3nic
2e3nie
eni3er.
eni3era
eni3erp
eni3ers.
en3i2ko
en3ill
eni4m
en1ima
en1imi
e2n1in
en3inh
e3nio
en3ion
e2nir
2enis
eni4sa
e4n3iso
e3nit2
e3niv
enk3aus
3enkeli
enk3erg
en2k3erk
en3k2ü
en5mil
en2nef
en2nel
enner2e
en2ner2f
enn3erg
enn2i
enni4ger
2enniv
enns2
enn3ste
e2n3oa
e2n1ob
e3nobel
eno2br
e2nof
e2noh
en3oli
en3olm
eno4ma
eno4n
e2n1op
e2n1o2r
en2ora
eno4ri
4enorm
e2n1ost
4e3not
eno2w
e1nö
en1ö2d
e4nöf
e4nök
e4nöl
4enred
en3sabb
en2san
en3sche
en2seb
ense2e
1ensem
ensen3e
en3s4pen
en3spo
ens2por
4enst.
enst3alt
en2stät
ens4tel
ens4temp
ens2th
4enstl
2ensto
enst2ü
2entab
en2tad
2entaf
en5t2ag
en2tanm
en2tanw
en3tar
ent2ark
1entd
en3t2el
ente2n
3entera
en2terb
1entf
2entfo
1entg
3entgeg
en2thi
1enthu
1enthü
en2t1id
3entla
1entn
en2tob
entopf3
en2t1os
2entö
en5tré
en4ts
1entsc
1entso
2entss
ent2sto
3en4tw
4entwet
1entz
e2n1u
e3nu.
e4nur
enu4t
e4nuto
e1nü
".
Definition de_15 : text := "4enwü
e1ny
en3zare
en2zene
enz3erf
enz3erg
enz3erk
enzer2l
enz3erm
enz3ersc
en4zf
enzi2d
enzlan2
enzo2l
en4zp
en4zr
en4zs
4enzuf
1enzy
2eo
eo3a
e1o2b1
eo3ben
eo3bl
eo3bo
eo3br
eo1c
eoch2
e1of
eo3g2
e1oh
eo3la
e3o2ly
e1on
e3o2nat
eon2i
eo1o
eo2pe
e1opf
e4oph
eop4r
e1or
e3or.
eo1ra
e3orb
e3o4r3ei
eorgi1
e3ors
eort2
e3orw
eo1s2
e3os.
eo3se
e1oste
e1ou2
eo1ul
eou4t
e1ö2
eö4fe
2ep2a
epa2g
epas4ser
2epeg
2eper
e3p2f
ep4fl
2epia
e2pid
e4pig
e2pik
3e4pile
e3pio
e4pip
1epis
2epist
1e2pit
ep3le
ep4lu
1epoc
eport4
epor3te
3e2pos.
ep4p1a
eppe3l
ep4pl
ep2pr
2epr
ep4rä
ep3sh
ep2tal
ep2tau
ep2tä
2e3pu
epu2s
2eq
e3qu
er1a
e3ra.
e2r3a2ch
e3rad.
e3ra3di
e2radj
e2r3adm
e4radmi
e4r3adr
eraf4a
era2g
era3ges
e1rah
e1rai
er3aic
e3rake
era4ku
e1rald
eral2eb
er3alke
e2r3all
er2an.
era4n4a
eran3d
e3rand.
e2rangr
e2ranh
e2rano
e1rap
er3apa
er3apf
er3apo
e2rar
er3are
e3rari
era2rie
e3ras.
era2si
era2ß
e2ratel
e3rativ
e2ratl
e1raub
e1rauc
er3aue
erau4f
er3aug
e2ra2v
e1raw
e2r3ax
e1raz
e1rä
er1äf
er1äh
er1ä4m
er1äp
e2r1äs
er1ätz
3erbarm
erb2au
erb2e
er3blo
2erbru
erb2sp
er1c
erche3i
er3chl
erch2o
erd2am
erda5me
1erdb
2erdec
er2d3en4g
erd3erw
erdes2t
erdeu2
1erdg
erd3st
2erdy
4ere.
er3e2ben
e3r2ech
er3echs
er1e2ck
er1edi
ere2dit
er1eff
e2r1e2h
ere3ho
4e3rei.
e3reib
1er1eig
er3eime
e4reink
er3eis.
er3eisar
er3eisb
er3eisf
er3eisr
erei3str
er3eisv
e4rek
er1e2l
e2rele
ere3lev
2erem
4erem.
er1emi
ere2mis
e2remp
2eren
4e3ren.
e3rena
eren1e
e2rense
e2rentn
e4r3ents
e3renz
eren4z5en4d
er4eo
er1epe
4erer.
2ererb
e2r1erd
e4rerfo
e2rerh
e2rerk
e2rer2l
erer3lau
e2rerm
2erern.
e2rerne
e2rer2o
erer2ri
er1ers
2erers.
e4rersche
e2rert
2ererv
2ererw
e4r3erze
2eres
4eres.
ere2sp
er1ess
eres3sk
er1eta
eretri3
er1eul
ere3un
ere2vid
erf2e
2erfir
4erform
erf4r
4erfür
er2g3are
4ergebi
3ergebn
4ergebü
2ergeha
2ergehä
ergel4s3
erg3elst
2ergeni
2ergn
er2gop
4ergrem
erg1s
erg3s2o
ergs4p
ergs4t
e2rh
1erhab
er3hag
2erhai
2erhals
2erham
2erhas
er3hei
2erher
4erhöc
er3hu
2eri
e2riat
e3rib
4e3ric
e4r3ico
er1id
4e3rie
erien1
erie2ne
e4rij
e3rik
eri3k4l
4erin.
e2r1ind
erin2fo
e2r1in2i
er1in3k
er1inl
er1int
er1inz
e2ri2on
e4rir
4eris
e2riso
e2risr
er1ita
3eritr
e3riv
2erk.
2erkaj
er3ker
er3kla
1erklä
2erkm
erk3t4
erk5to
er2kum
2erl.
2erlag
3erlebn
2erln
erm2
er3ma
1ermah
er3men
ermen2s
erm3ers
er2nalg
er2n3alt
er2nau
er4nene
er2nerf
er2nerk
3erneue
er2nob
erno2r
ern1os
2e1ro.
e1roa
er1ob
ero2bl
ero2br
e2r1of
e3rofr
e1rog
e1roh
e1rok
e1rol
er3oly
e1rom
er3omb
2e3ron
e2r1oo
er1op
2e4ro4r
eror2a
e1ros
1erosi
e3rosit
e1rou
e2r1o2v
e1row
er1ox
er1oz
erö2d
2eröh
erö4l
er1ös
erö2sc
er3pl
3erprobu
er3rä
4erren
ers4ana
ersch4
er3schm
er3schn
er3sen
ers3hal
er3s4i
er3sk
ers4por
er3stel
erst3ers
2erstil
ers4tod
ers6tri
er3swi
er3sz
ert1ab
4erteig
er2t3erf
er2t3er2g
er2ter2h
er2ter2k
er2ters
ert1h
er2tho
4ertö
er3trau
er5tri
".
Definition de_16 : text := "4ertru
er4ts
ert3s2e
ert3s2p
2eru
eruf4s3
e4r3uhr
er1u2m1
er1und
e4rundu
erung4
er1up.
e4r3ur
er3use
eru4t
er3ute
e2r3uz
erü4b
3erweck
6erweib
es3ab
e4sabe
e2s1a2d
e3saf
es3ak
e4s3all
es1ami
es3ampl
es2ank
es2anm
es2anr
es3anz
e3sap
es2apa
esa2ra
e3sa2s
es2ast
e3satz
esa2v
es1ax
2esb
esbi3er.
e3s2ce
esch2
es4chi
e2s3ec
es1ehr
esein2s
es4ek
es2el
ese3lam
4esen
ese4nal
ese2neu
esen3o
e3s2ens
esen3sk
esen3th
ese4r1u4
eses2k
e2s3e2x
2esf
2esh
es2har
2esi
esi1er
e2s3i2k
e2s1il
esi2st
e4sk.
es2kat
e4skä
e4s3ke
e4s3kl
e4skö
es3ku
e4s3ky
es3l
2esm
e2s3oa
e4s3ob
es1od
eso4f
e3s2oh
e3sol
esonan2
eso2r
es1ora
eso3re
es2ort
e3sot
e3s2ö
2es2p
e3s4pal
es4park
es4pec
e4spers
e2s3ph
e3spi
e3s4por
es4pru
es4put
2esr
2ess.
es2s1a2g
essali3
essau2s
1essay
es3sc
ess2ere
ess2erf
es2s3er2g
ess3er4la
es5sie
2esso
es2sof
es2sorg
es2s3pa
es2spu
ess3tie
es3stu
es4sü
e4st.
estab4b
esta3ge
est1ak
es4tanb
es4tang
e2stant
e1stap
e1star
e2starb
e2sta4s
est3asc
e1stat
e2stat.
e2staum
es5te.
es2tec
este4i
est3eing
est3eink
est3einl
est3eint
e1ste2l
es4t3emi
e4sten
es4t3eng
est3entr
es2tep
est3ergi
est3erha
es2ter2ö
es4t3es4s
es2th
es2tid
e1stil
e2stip
es2tis
e4stl
estmo4de.
1estn
e2stom
e3strec
es4tri
e1strö
es4ts
est3ums
es2tur
est3urk
e1s4tü
e3sty
es4uc
e3suh
e2s1um
es3ums
es2und
es3unt
es1ur
esu4s
es4ut
2esw
e3sy
es4ym
es3z
es4zene
es4zk
2eß
e2ß1el
e2ßent
eß2e3re
e2ß1er2g
e2ß1erl
eß3t
etab4
eta2c
2e3taf
2etal
et1a4mi
et4an.
e3tas
et2ast
et4at
etat3r
et1äh
2ete
ete2e
e2t1ef
et1ein
ete3ke
eten3d2
ete2o
eter1ä
eter2hö
eter2tr
ete2s
2eth.
et2ha
et3hal
e3the
et2hi
e4thik
3ethn
et2hu
e4t1i2d
eti2m
eti3na
et1ini
et2it
eti2ta
eti4th
et3l
2eto
e2t1o4f
eto4n3al
eto2ner
etons4
et1orc
e4torg
eto2s
2etr
et3rad
e2traum
et3rec
e4t3res
et4ros
ets2c
etscher5e
etsch3w
et2s3pe
et2ste
ett1a
et2ta2b
et2tad
et2tak
etta4m
et2tans
ett2as
et2tau
et2tei
ette4n1
ett4er
et2t1h
et2t3r
et2t1um
3e2tui
e3tur
e3tü
e4tüb
etwa4r
ety2l1
1e2tym
2etz
et2z3w
eu1a2
eu3b
eub4r
2euc
euch4ta
2eud
eude1s
eudi4e
eu2eb
eue2r3ei
eueren2
euerer4s
euerer4t
eu3eri
euer2ri
eu2esc
2euf
eu4fer
eu2g1a
euge2mi
eu4gense
eugin2
eugin4f
eu2ging
eu2gre
eu2gri
eugs4
eug3sp
eu3h
eu1id
eu1in
1eukal
eu2kä
eulan2
euland3
eul2e
eul2i
2e1um
e3um.
eu3m4a
e3umb
e3umf
e3uml
e3um2s
eum4s3p
e3umw
2eu2na
eun2e
e3un2g
eu2nio
eu4nis
eunk2
eun3ka
eu1o2
eu3p
e1up.
eu4pd
eup2f
e3u4pg
eu4r1an
eu2r3ast
eura3t
eu2rau
eur1c
e2ure
euren2
eu2rens
eur4er
eurf4
1euro
eu4rs
eur4so
e3usar
eusch2o
eus2i
eu4sk
eu3s2p
eust4
eu1sta
eu1sto
eu1s4tr
eut2e
eute3r2e
eut2h
1eu3tha
eut2i
eut2o
eu5tor
euts4
eut4schn
eut4schr
2eux
eu1y
eu2za
euz3eic
eu2zo
eu2z3w
e1ü
e3üb
e2vak
e3var
eva4s3
2ev2e
eve5ri
evie3le
2e3vor
ewä2s
e2we.
ewei4sc
ewert2
ewer3te
ewi2s
e3wit
2ex.
1exa4m
ex3at
2exc
2exd
e2xel
ex1er
2exes
e1xi
2exik
e2xil
e2x1in
e3xio
".
Definition de_17 : text := "1exis
ex3l
1exp
2expu
2ext.
2ex2ta
ex2tin
1extr
2extu
2extv
2exu
e2xum
2e1xy
2ey1
eyl2
ey2n
ey3no
eys2
e3z2a
ez2ä
e2z1enn
e3zi
ezi2s
ez2o
ez4wa
ez4wi
ezz2
é1
é2e
égi2
él2
élu2
ém2
ér2
ési2s
éu2
éz2
è1
ène1
ènes4
2ët
ê2t
1f
2f1abb
fa2ben
2fabf
2fabg
2f1a2bl
2fabn
3f2abr
2f1abs
2fabw
fa2cheb
fa2chel
fa2ch1i
fa2cho
fachs4p
fa2dan
fa2del
f4aden
f1ader
fa2di
fa2dr
fa3e
fa4eli
2faf
fah4l3ent
3fahrt
fai3b
f1a4ka
fa4ke
f3aktio
f4akto
f2aku
fa3l2a
fa3le
fal2kl
fal2l1a
fal3le.
fal2l3ei
fall3ent
fal2ler
fall3er4s
fal4scha
fal4schei
fal4schl
fal2tr
fa4mei
4f1amp
f1amt
f2an.
fa2nar
2fanb
fand2a
f2anf
fan2ga
fan2gr
2f1an3k
2fanl
4fann
f1anp
2fanr
2fanw
2f1an3z
2f1a2p
f2ar
far2b1a
far4bel
far2b3er
far2bin
farb1l
far2bo
far4b3r
far2b3u
f3arc
3fa3ri
farm2e
far2r1a
far2rh
farr3s
2f3art
2f3arz
fa3s4a
fa3sh
fa2st
2f1astr
fa2ß
f3at
f4at.
fa2to
f4ats
4fatt
2f1aue
2f1auf
f3aug
fau2s
f1ausb
faus4t3r
3fav
fa2xa
3fä1c
fäh4rin
fäh2ru
f1älte
2fäq
3färb
2f1ärm
4f1ärz
fässer2
fäs4serk
fäs4serw
fä2ßer
2f1ätz
2fäug
2fäx
2fb2
fber2
fb4re
2f1c
f3ch
2fd2
f3da
fdien2
fd4rö
f3ds
3fe.
featu4
fe2c
f2ech
fe3che
fech5t2e
fe2del
fe2dr
fe2e1i
feein3
fe1em
4f1e2he
fehle2
feh2lei
fei3le
f2eind
fe3infr
2f1eing
fe3ini
fe3ins.
fei4nu
2f1einw
f1eis
fek2tin
fek2t3r
fe2l3a2
fe2l1ä
fel2da
felde4m
feld2er
fel2dr
2fe2lek
fe2l1er
fe2les
fel3le.
fe2l1o
fels2t
felt4
4fel4tern
f2em.
2femb
fem4m
2femp
3fen.
fen3a2
fe2nä
fend2
4fenerg
fene4t
fe2ni
fe2no
fen3s2a
fens2c
fenst2
f1ent
fen3t2a
2f3entf
f2enti
2fentla
f2ento
2fentw
4f3entz
fe4pi
f2er.
fe2r3a2d
fer3al
fe1ran
fe2rang
fer2ant
fe2ranz
fe2r1ä
2ferd.
fer3da
fer3d2e3
2ferde.
2ferden
fe2r1e2b
fe2rec
fer2ei
4f3ereig
fer3eis
fer3ell
fe3rerf
fe2rer2g
fer2fah
fer2fol
ferg4
2fer2geb
f4erges
f4ergr
fe2ri2d
ferie4n3
feri4on
fer2leb
fer3m
f2ern.
fer4nei
fe2rö
f4erpa
f4erpf
f4erpl
f4er5ra
fer2reg
ferri2
f2ers.
f2ert
fert4r
f2erz
fer2zeu
3fes
fes3s2e
fe2sta
fest3a2b
fest3an
fest3ei
fes4tel
fester2
fes4t1o
fe2s4t3r
2f1e2ta
fe4tag
fe2th
fet4t3a
fetti3s
2feu.
feuer3ö
2f1ex
fe1y2
2ff
ffab2s
ff1a2d
f3f2ak
ff3ar
f3fas
ffa2t
ff1au
f2f1e2b
f2f1ef
f2f1ei
ffe3in.
ff1e2m
f2femi
ff2en
ff3erle
ffer3z
fff4a
ffi3k
ffin3s
ff1lag
ff3le
ff3li
ff5lon
f3flü
ffo2r
ff1ox
f3f4rä
ff3ro
ff4rü
ffs2am
ff2s3p
ffs3tie
ffs3tut
ff3stü
ff3t2
ffus3s
2fg2
fgeb2
fge3s
f3gh
fglim2
f3gü
2f1h2
fh4eu
f3hu
fi4ak
fi2ar
fi3at
fid2
fi2do
fid4s
f2i2e
fi4eb
fie1i
fien3
fi1er2f
fi4es.
2fif
fi2g3r
fi2k1as
fi2kel
fi2kin
fi2kn
fi2k1o4
fi4k3r
f2il
fi2l3an
fil3d
fi2les
fil2et
fi3li
fi4lin
fil2ip
fil2ma
fil2mä
fil2med
fil2mei
fi2l1o
2f1im
fi4mi
4f3imp
3f2in2a
fin2e
2f1inf
fing2
fing4s
2f1inh
fi3ni
fin2s
fin3sc
fin3sti
4f1int
4f1inv
fi2o
fi3ol
fi2r
fi3ra
fi4re
fir3me
fi3s2a
fi2sch3a
fi4schei
fisch3o
fi2schr
fi2sch3w
fi3s4h
".
Definition de_18 : text := "2f1iso
fis2p
fi2s3t
fite2
fi2tin
fit1o2
fi4tor
five4
fi2xel
fi2za
2fj
f2jo
2fk2
fkaken4
fka4t3
fk4ne
f2l2
2fl.
f3lad
f5land
f4lans
f3lap
f4lasc
fl4at
f3lat3s
flauma2
3flä
f4läc
4fläd
4fläh
4f3län
4flär
4f3läu
f3le.
2f3leb
f4lec
f4lee
2f5lein
flek3
flekt2
f3ler
f4lex
f3li.
3f4lim
f3lind
fli4ne
f3ling
2f3lins
f4log
2f3lon
3f4lop
3f4loß
3f4lot
flo2w
f3lö
4flöf
f4lög
f4löß
f4löz
3f4luc
f3luf
3f4lug
3f4luss
f4lut
flut1o
f3lüm
fly1
2fm2
f3ma
fma3che
fma2d
2f1n2
f3na
f3ne
fnerz2
f3ni
fni2s
f1ob
fo2be
4fober
fob2l
2f3of
fo4fe
3foli3
3fon
fo2na
fo4nan
fon3au
fon3dr
foni2e
fo4n1in
fo2nop
fons4
fo2nu
f1o2p
fo3po
4f3org
fo3rin
3form
for2m3a2g
for4mas
for2m3ei
for2min
forni5er.
for4st
3fortb
for2t3ei
for2ter
for2th
for2t3r
fort3s2
for3tu
for2u
fot4r
2föf
fö4fe
2f1ök
2f1öl
för4s
2fp2
f3pf
f3pl
fp4lu
2fq
f2r2
f3ra.
frach4tr
2f3rad
2f3rah
fra4m
fr4an
f3rand
f3rap
f3rase
fras3ta
f3rat
3frau.
f3rauc
2fräd
3f4rän
2fre.
f3rec
f3red
4fref
f4rei.
f3reic
f4reie
frei3f
f4reig
frei3k2
4frein
2frek
2f3rep
f4req
f3resi
4frest
3f4reu
2f3ric
fricht4e
fri3d
f4ri2e
f5rieb
f5rief
2frig
f4ri3k
2f3rin
f3rip
fr4is
f4risc
f4rist
2f3roc
f3rok
2frol
3f4ro2n
fro4n1a
f4ror
f4ro2s
f3rot
f3roz
frös2
f3ru
f4ruc
f3rü
2f1s
f2s1al
f2sa2n
fs3ane
f4s3ar
f2s1a2s
fsa2t
fs3ate
f2saut
fs2än
f3sc
f4sca
f4sce
f4schan
f4schef
f4schro
f4scr
f2s1e2b
fse2ei
fs1ehr
fse2n
fs1en1e
f2s1ent
f2s1er
fser2u
fse4t
f2s1eta
f2s1i2d
f3s2ky
f2s1o2
f3soh
f3sol
fs2pa
f2s3pas
f2sph
f3s2pl
f3s2por
fs2prä
f2spre
f2spro
fs2pul
fs3s2
fss4h
fs2t
f4st.
fst2a
fs3tak
f2stas
f3stat
fs3tät
f2stäti
f2stech
fste2i
f3stel
f3stern
fs3th
f2stip
fs4tor
fst4r
f2s3tres
fs3trü
f2stüte
f2s1un
f3sy
2ft
f4ta.
ft1a2be
ft1abl
ft1af
ft2ag
ft1ala
ft1an
f2t1ap
ft1a2r
ft3att
f2t1äu
fte2c
ft1eck
ft1edi
ft1eh
fte2he
ft1eig
ft1ein
ft1eis
ft1eli
fte3ma
ft1emi
f4t1ent
ft3erfü
ft1erk
f2t1erl
fter2le
f2t1erz
f4t1eti
f2t1ex
f2t1h
f4t3hei
f2t1id
f3tik
f2tim
f2t1in
f3t2ing
fto2
f2t1of
f2t3ot
f3t4ran
f2tres
f3treu
ft4rit
ft3ro
ft4ru
ft5rud
ft5ruh
ft2s1
ftsa2g
ft4sam
ft3s2c
ft4sche
ftse2
ftsen1
ft3st
ft4staf
fts3tät
ft4stei
ft4stem
ft4stier
ft4streu
f2tum
ft1urk
ft1url
f3tü1
f4tüb
ftwa4
ft3z2
ftze3d
ftz4w
3fuc
3fug
fugi3
3f2uh
fuku3
fulb4
f1um1
fu2mei
f2umm
2fums
fun2d3er
2f1unf
fung4
2fungl
2f1u2ni
fun2k3l
fun2ko
fun2k3r
fun2ku
4funm
4funr
4funt
f2ur
furch2
fu4re.
2f3url
fus2sa
fus2s3p
fus2st
fu2ß1er
3fut
2füb
fühl2sc
fün2
fü2r
2fv
2fw
fwur2
2f1y
2fz
fz2a
fzeiten4
fzei4tend
fz2ö
fz4wi
1g
3ga.
2gabf
2gabg
2g1a2b3l
gab2o
gab4ri
2gabsc
g2abt.
2gabtr
ga3bu
2gabw
2gabz
ga1c
gade2r
ga3d2i
gadi4e
ga2dr
gae2
ga3fl
3gag.
ga3k
ga4kt
ga4ku
gal2a
2g1alau
2g1alb
g1alg
gal3lo
2g1alp
2g1alta
2g1altd
g1a2lu
ga4mec
gam3ma
3g4amo
".
Definition de_19 : text := "2g1amt
g1a2na
2ganal
gan3d2
2ganf
2ganga
2gangeb
gan2gr
gang4sp
gan2g1u
2g1ank
2ganl
2ganmu
3gano
ga2nob
2ganr
gans2
g2ans.
2g1ansi
2ganst
2ganw
ga1ny
2g1anz
ga3pe
2g1app
3gar.
g2ara
2garc
3g2ard
ga3ret
ga3r2i
2g3arm
ga3r2o
gar2s
2g1arti
ga3ru
2g1arz
g2as.
ga2sa
ga4s3al
ga4sam
gasche2
gase2
ga3se.
ga2sei
ga2sel
ga2se4m
ga2si
ga2sor
gas3pe
gas3s2
3g4asse.
g3asses
4gassess
ga2st
ga4ste
gas4t3el
ga4str
gast3rä
ga3t2a
2gatm
gat4r
gau1c
2g1auf
2g3aug
g2auk
gau3ne
2g1aus
2g1aut
ga3z
gäm3
2g1äp
gär3th
2g1ärz
gä4st
2g1ät
gä4us
2gb2
gber2
gbi2
gb4ri
gby4t
2g1c
2gd
g3d2ad
gda3de
g2d1ak
g2d1an
g2d1au
gdä1
g2dei2
gd1els
g2dent
g2d1er
g2d1et
g2d1in
g2dop
gd3re
gd3ru
gd3s2
gdt4r
ge3a2
ge4at.
ge4ate
geb2a
3gebä
ge4bb
3gebi
ge3ble
geb2lin
geb4lo
gebot4
ge4bt
3gebü
ge1c
ge3ck
ge1e2
ge3ec
ge2es
geest3
ge3fa
2gefak
3gefä
4g1eff
gef4l
gef4r
gege2n
gegene4
gegen3s4
ge3g2l
geg4r
3geha
3gehä
geher3l
ge3ho
ge4hs
ge4ht
ge3hur
2g1eid
ge4ie2
ge4ig
ge1in
ge2inf
gein2h
gein3i
2g1einr
gein2s
gein2v
ge1ir
2g1eise
gei3sh
geis2s3c
gei2st
geist3r
ge4iz
2gek.
ge2lanz
gelb1r
gel2b3ra
gelb3s
3ge4ld
gel2den
gelder2
gel4derh
gel4ders
ge3lec
gele3cke
ge2lef
2g3e2lek
2gelem
gelen1
ge2lene
geler3l
geler3ö
ge2l3ers
ge2l1ev
gel3f
gel1i4m
gel3la
gell2i
gel2ö
gel3sa
gels2p
gels2t
gel3ste
gel3sz
ge4lt
gel2ta
gelt4r
gel3z4
gem2
ge2ma.
ge3mau
gem4e
4g1emp
gem3s
ge3mu
3g4en.
ge3na
ge4n1ac
ge4nad
ge4nak
ge4nal
ge4nam
ge4nap
ge4nar
ge4nat
2genda.
gend3in
2g3endmo
gen2d3r
gen2eh
gen3eid
2generg
ge2n3ern
gen4erwe
gener2z
ge2nim
gen3k4
gen3n
3geno
ge2noc
ge4nr
gen4sam
gen4semb
gen3sk
gen3sz
gen3tä
2gentf
gen3t2h
gen3tr
2gentw
ge1oo
geo2ri
g2ep
ge5pfi
ge3pl
ge3po
ge1ra
ge2ra2b
ge2rak
ge2r3al
ge3rann
ge2rant
ge4r3a2r
ger2as
ge4rb
2gerdg
ge3rem
ge2rene
ge2reng
ge2ren2s
ge2r3ent
ger2er
gerin2d
gerin4f
ger2inn
gerin2t
2ger2klä
g3erlas
3g2erlä
ger3no
2g1ernt
ge1ro
ge2rob
ge1r2ö
4g3erprob
ger2sat
2g3er2seh
ge3r2u
ger2zeu
ge1s2
g4es.
ges3auf
gesch4
ge4sche.
ge2s3eb
2g3e2sel.
ges3elt
ge2s3er
ge3sha
ge3si
ges3k
ge3so
ges3s2a
ges3se
ges3s4t
gest2
gest4a
ge3stak
ges4tan
gest4e
ges4tem
ge4s3ter
ges3th
ges4tier
ge2s3tur
ge3t2a
ge4tang
ge4tant
g1etap
ge2thi
ge5tri
ge3t4u
ge5tun
2g1e1ul
ge3unk
ge1urt
ge3u4t
ge3we
2g1e2x
2gf2
g3fe
gfi2l
gf4rü
2gg
gga4t
g3ge
gge2ne
gge3sa
ggi3e
gg2l
g3gla
g3glo
g2g3n
gg4re
gg5re.
ggs2
2g1h
gh2a
3ghale
gh2e
gheit4
3g2het
3g2hie
gh1l
gho3re
3gh2r
ghs2
gh3sc
g2hu
gh3w
gi3alo
gich2
gicht1
gi2e
gi4eb
gie3g
gie1i
gie3l
giel2a
gie5n2e
gi4eno
gi3ens
gie3res
gi3ern
gie1st
gift5s
gi2gu
gi2kel
gi2me.
gi4mes
gi2met
2gimp
2gin2d
gi3ne
2g1inf
4gingeni
2gin2h
g1i4ns
gin2sa
2ginsf
2g3int
2gin2v
gi2ob
2giok
2g3isel
gist4
giste4
git2a
gitt2
gitt4e
gi3tu
gi4u3s
2gj
2gk2
gk4ne
g3ko
gl2
2gl.
2g1lab
2g1lac
2gladu
2g1lag
2g1lam
2gland
gla2s1c
glas3p
glas3t4
gl4at
".
Definition de_20 : text := "3g2laub
2g1lauf
2gländ
3gläs
2gläuf
gl3b
g2le
2g3le.
3glea
2g3leb
g3lec
3gled
g3lee
2g3leg
2gleh
g4leic
4g3lein
glei4st
gleiter6sc
glei4t5r
g3len
4glenk
4g3ler
glerei2
2gles
3gles.
g3lese
g2lia
2glib
3g2lid
3g2lie
4g3lieb
2glif
g2lik
4glil
g2lim
2glin
g2lio
2glis
g2lit
g3lite
g2liz
g3lize
g2loa
g2lob
g2loc
2g3loch
g5loks
g2lom
g2lop
2glorb
2glos
g2lot
2glöch
2glös
2glöw
2gls
g1lu
2g3luf
2gluk
2g3lun
g2lut
3g2lü
g3lüg
2glw
3g2ly
2gm2
gmen2tr
gmi2s
g1n
2gn.
g2n2a
g4na.
2gnac
g4nad
2gnah
gn4al
gna2ler3
2gnanl
3g2nä
2gnb
2gnc
2gnd
gn2e
g3neh
2gn3ent
gne2tr
gneu1
2gnf
2gng
2gnh
g2nie
g2nif
g4n1in
2gning
2gnint
2gni2s3
gnise2
2gnk
2gnl
2gnm
g2no
3g4non
gno1r
g3not
2gnp
2gnr
2gns
2gnt
2gnu
3g2num.
g2nü
2gnv
2gnw
g2ny
2gnz
3go.
go2a3
go4al
g1ob
gobe3l
2go4bj
g2ob2l
go4b2s
go4ch
goe3
2g1of
go4fe
2gog
go4gh
2g1oh2
goh3ren
go1i
gol2a
gol2da
gol2fr
go4mn
3gon.
go4nat
go4nd
gon2e
3gons
3g2opa
gopf4
go2pos
2gopt
gor2a
2g1o4rd
g1org
go4rt
3gos
go2si
go2sp
go4ss
go1ste
4g1osz
go3th
go4tt
got4terb
got4t3erg
3gou
go1y
gö4fe
g1öl
3göt
2gp2
g3pf
gp4fu
gp4la
g3ps
g3pü
2gq
g2r2
g4r4ab
gra2ba
gra2bi
gra4bl
2g3radl
2g3rah
g3rai
2g3rak
gr4al
gram1
grammen4
gram4m5end
gram4mer
g3rand
g4rande
2gra2r
grar1e
gra3rie
gra4s3a
gra4sh
gra4sp
gra2st
2g3raub
grau5f
2graum
grau3sk
2gräd
g3rän
gräs1c
g3räu
2gre.
g4reb
2g3rec
g3rede
g4ree
2g3ref
gre2fr
2grege
2g3reic
grei4fr
2g3reih
g3reim
g3rein
g3reit
3g4rem
3g4ren
4g5renn
gre3no
gren4z3ei
grenz3w
g4rer
2g3rese
g3ret
g3rev
2g3ric
gri2e
4g3riem
g3riese
2grig
gril2la
4g3ring
4g3rinn
gro2b3a
gro3ber
gro2bl
gro2b3r
2groc
2groh
2g3rol
gr4om
2g3rose
g4ross
gros4sel
g4roß
g4rot
2g3röc
2gröh
2gruf.
g4ruft
2g3ruh
g3rui
2g3rum
grunder5n
grun2g
3grup
4g3rut
2g3rüc
2g2s1
gsa2
gs3ab
g4sac
g5sa3ck
gs3a4k
g3sal
g4s3alb
g4sall
g4salm
g4salt
gs2am
g4s3ama
gs3amb
g4s3amp
gs3a4p
gs3ar
g3sat
gsa3te
gsau2g
gsau4r
g3säu
g3s2c
g4sca
g4s3ce
gsch4
g4schef
gs4chi
g4scl
g4sco
gse2
gs2e3h
g3s4eil
gse4kl
g3sel.
g4sela
g3seln
gs3em
gsen1
g4ser
g3sere
gs3er1i
g4se4s
gse4t
g4seu
gsfi2l
gs3ha
gsi2d
gs3i2k
g3s4il
gs3io
g4s3ita
gs2ki1e
gso2
g4so4b
gso4f
g3sol
gs4on
g4s3op
g3s4oz
gs3p
gs4pac
gs4pant
g3spei
g3spek
g4spf
g3spi
gs4pir
g4spl
g3s4port.
g4spru
gsrü2c
gs3s2
gss4t
gss4w
g4st.
gs3ta
g3s4tad
g4stag
g3s4tan
gs6tand
g4stanz
g3star
gs4tati
gst1au
gs3tä
g3steh
g3s4tein
g3st2el
gs4tell
gste2r
gst3err
g1steu
gs2thy
g3stif
g3stil
g3stim
g3stir
g3sto
g4stoch
g4stod
gs4tof
g4stor
gs3tö
gs4tör
gst3reit
gs3t4res
g4s3treu
gs4t3rit
gst3ros
gs3trü
g3stun
gs3tü
gs4uc
gs3un
g3sy
gs4ys
2gt
g3te
gtei3s
gt1h
gt2hy
gt2i
gti2m
g3to
gt4ra
gt2s
g3tü
gu4ale
gu3am
gu1ant
gu1as
gu1c
gu4d3r
gu2e
2gued
guet4
2g1uf
gu4fe
2g1uh
".
Definition de_21 : text := "gu3ins
gu1is
gum4e
3gumm
gummi1
gun2e
2g1unf
gunge2
2gungew
2gungl
2g1u2ni
2g3unk
2gunr
gun2s
2gunt
gure4
2g1url
gur2t3h
gur2tr
gurt3s
gu2s
gu4s3a
gu3sc
guschi3
gu3se
gus3se.
guss1o
gus2sp
gus2st
gu4st
gust3a2b
gus3te
gus4t3en4d
gus4terl
gus4tr
gu2t
gut1a
gut3er2h
gut1h
gut2s3p
2güb
3gür3
gü2s3
2gv
2gw
gy2a
gy3n
gy4na
2gz2
gzeu2gi
g3zh
2ha.
hab2a
hab2e
h3abf
hab2i
h1ablu
2habn
h1a2br
h1abs
2habw
ha2ch3en
ha2cho
hacks4
2hada
ha2del
h1adle
h1a2dr
ha3dri
2hae
ha3el
ha4far
haf2e
h1affä
haf3f4l
h2aft
haf4to
haf2tr
haf4tre
haft4s3p
hag2a
h2agg
h1ah
ha3ha
h2ahs
h2ai
3hai.
h2aj
2haka
ha4kes
ha3kl
2h2al.
ha3l2al
halan2c
h1a2lar
ha2lau
hal2ba
hal4bel
hal2bin
hal2b3r
hal2bu
2hale
2halh
hal2i
hal2l1a
haller2
ha3lo
4halp
hal4sk
hal2sp
hal2st
hal2tal
hal2tei
hal2t5r
hamot4
hampi4ons
2h1amt
h2an.
2hana
ha2nal
ha2nan
han2au
2hanb
h2anbe
h2and
han2da
han3den
han2d3er
han2d3r
hand3s
ha2nem
hanf1
han2fl
han4g3end
han2gro
han2k1
2hanl
2hano
2hanr
h1ansc
2hanz
2h1ap
3h2ape
ha2pl
ha2po
ha2pr
ha3ra
h1a4rab
2harb
2harc
h2ard
har2fr
h1arm.
har3ma
h2arme
har2me.
har4ne
ha2rom
2hars
har2th
h1arti
har4tr
h2arts
har2za
h2as
2has.
2ha3sa
has4c
has2h3
has2p
has4sa
has2ser2
has4s3t
ha2str
h1a2ß
ha2ta
hat2i
h3atl
ha2t3r
2hats
hatt2
hat5tr
h1audi
h1aufb
hau3f4lie
hau3f4lo
2h1aufm
h1aufs
h3au3g2
h1aukt
hau2sa
hau4san
hau2s1c
h2ause
hau2sel
hau4s3ent
hau2spa
hau2spe
haussen4
hau2sur
hau2t1a
hauten4
hauto2
hau4t3r
ha2ve.
havil2
häde2
h1äff
2häi
hä2kl
2h1ärz
hä4s3chen
2h1äst
2häug
häu2s1c
hä3usp
2hb2
hba2ras
hber2e
h3bo
hb4ri
2h1c
2hd2
hdan2
hdä1
h3ds
2hea
he2ad
he3as
heb3eis
he2b3l
he3bla
he3ch2e
he1cho
h3echs
hed2g
he2dit
he1e4m
he1e2n
he2en.
hee2s
he1e2t
h2ef.
he2fan
he2fau
he2f1ei
hef2em
hef3erm
2heff
he2fid
he2f3in2g
he2f5le
2hefr
hef4ra
he2fre
3heft
he2fu
he2hel
hei4a
h4eib
h1eie
h1eif
hei4fr
h1eig
he2im
hei2mal
hei2man
hei2mei
heim3p
hei4mu
2hein
hei4na
heine2
hei2n3eb
hei2neh
hei4nene
hei2n3er2
he2inf
h3einsp
2heio
2he1ism
he1ist
h2eit
he3i4ti
heit2s3
h1eiw
hekt3a
he2la
he3lag
hel1an
hel3au
hel1ec
he2lek
h3elem
h2elf
hell2a
hel2l3au
helm1a
hel2man
hel2mei
he3lo
he4lof
hel2or
he2lö
helsau2
4helt
h4em.
2hema
hem2b
1hemd
2heme
h2em2i
h3e2miss
1hemm
2h3emp
h2en.
he4n3a2
he2nä
hen3ebe
henen1
hen3end
he4nene
he4nens
he4nenz
hen3erg
he2nerm
he2n1e4t
2henga
hen2gag
hen2kan
hen2kau
2heno
heno3t
hen2sem
henst2
hen3str
hent2a
hen2ter
hen5tr
h1ents
2hentw
h3entz
he4n3u
hen3z2
2he2o
he3on
he3op
heori2e
h1e2pi
h1epo
hept2
h2er.
her3a2b
he2rad
2herap
he4r3a2r
herau2
herb2
her3c
her2dri
h2ere
he2r1e2b
he2reck
her2eif
2he3reig
herein3
he4reis.
her5eises
he2rel
he2rene
herer3s
he4rersc
he2rerw
h4erfam
h1erfo
her2fol
herg2
4her4gebn
he2rid
heri2e
4herif
herin2d
herin4f
he4rin4nu
herin2s
herin4ter
h1erke
her2klä
h3er4kran
h4erlad
2herm
h1ernt
he3ro
he4r3o2b
he4rof
he4rop
he4rot
h1erör
hers4k
her3sta
".
Definition de_22 : text := "hert4
her3th
her3um
he2rut
h1erwä
her2zap
her4zeng
her2zer
h3erzeu
her2z3w
he3s2a
2hese
he3si
hesi2e
hes4p
hes4ser
hes6tän
hes6tro
hes6trö
hes6tüc
he2tap
hete1
heter2
het2i
he3t2s
he2u
heu3g
h3eule.
he3unt
3heusc
he1x4a
2hexp
hey2
he1ye
1hè
2hf2
hfaller4
hfan2
hfel2l3
hfi2s
h3fl
hf4la
hflei2
hf4rü
2hg2
h3ga
hga2s1
h3gr
hg4ru
h3gu
2h1h2
hhoh2
2hi.
2hia
hi2ar
h1iat
2hic
hi1ce
hich4t3er
hicht4sp
hi3d
hi4db
hi4dd
hid4e
hi4dio
2hido
hi2e
hi3ens
hie2rei
hier3i
hie2rin
hiers4
hif3f4r
hi2k3r
hi2l3a4
hi3l4au
hilen2
hil2fr
hili2e
h2im
2hima
h3i4mit
h4imm
h3impe
h3impl
hi2n
hi3nak
hi3n2am
hi3nap
hi5n2as
hinau2
hine2i
hi3nel
hin2en
h1inf
h1inh
2hi3n2i
hin3n2
hi3n2o3
hin3s2
hin2t1a
2hio
hi3ob
hi4on
hio3p
hi2p3
hi4pl
hips2
hi4pu
hi2r
hi3ra
hir3b4
4hi3re
hi3ri
hir2m1a
hir2mi
hirn1
hir2ner
hir2s
1hirt
2his.
his2a
hi2se
h1i2so
his2p
hi3tac
hi3th
hi3t2i
hit1r
hit3z2e
hi2v1o
2hj
2hk2
hkamp2
h2keu
hki2n1
h3kl
hklat3
hk4ne
h3kö
hk4re
2hl
hl2ag
hla2gr
hlan4d3a
hl1ans
hl1anz
h1las
h1lat
h1laut
h1lay
h3läche
h4läf
hl1är
h1läs
h1läu
hlb4l
hl3d2
hld4a
hld4r
h3le.
hle3a
h3leb
h3led
hle3e
h2leis
h3leist
hl1el
h5len.
hle4nas
hl2enn
hl3entr
h2lents
hl2enz
h3ler
hle2r3a
hl2ere
h2lerg
hler2hö
hl2erk
h6l3er2nä
hle3run
hl1erw
h4lerz
h3les
h4lesi
h4leud
h2lie
h3lied
h2lif
h2lim
hl1ind
hling4s
h2lip
h2lis
h2lit1
hl3l2
hl3m2
h2lo
hl1ob
h3loc
hl1o4f
h3log
h4lor
hlo2ra
h5lorb
h3los.
h3losi
h4loss
hlos4st
h2lös
hl2sal
hl4sar
hl2ser
hl3ska
hl3slo
hls2tec
hl3s4tern
hls3tie
hl5str
hl2su
hl3t2
h3luf
h3luk
h3lumpe
h1lüf
hlz4w
2hm
hm2a
hm3abl
h3mad
h3mag
h3m4ak
h3man
h2mant
h3mar
h4m3arc
h3mä
h4mäc
h4mäh
h4mäl
hm2e
h3me.
h3med
hme1e4
hmeer2s
h3mein
h3meise
h3meld
hme3le
h3men
hmen2s
hmen4s3p
hme2ran
hme2rei
hme2rid
hme1s2t
hm3estr
h3mex
hmi2e
h3mind
h3mirr
h3misc
h2mo
h3mop
h3mot
h3m2ö
h4mök
h4möl
hm3p2
hm2s
hm3sa
hms3p
h2mu
h3mul
hmut4s
h3my
2hn
h2na
hna2c
h3nag
h3nam
h4nar
hn3a2te
h4natt
h3nau.
h2nä
hn1äh
hn1är
h3näs
hn3d
hnd4r
hn2e
hne3b
hne2e3
hn3eff
hn3eig
hn3ein
h2nel
hne4n
hn4eng
hne4pf
h3ner
hner2de
hner3ei
h4n3e2ro
h4n3ersa
hn3eur
hn3ex
hn3f2
hnf4l
hnflei4
hnhof6stras
h2nic
h2nid
h2nie
hn1im
hn1in
h2nip
hni4sa
hnk2
hn1ob
h2no2r
hnra2
hns2
hn3sa
hn3sp
hnst2
hnsuch2
hn2th
hnts2
h2nul
h2n1unf
hnz2
h4oben
ho3bern
ho2b3l
ho2ch3
ho4cha
ho2cka
ho4ckerl
2hocy
2hod
2ho2e
hoe3n
ho3er
ho4f3a2
ho4fä
ho4fed
ho4feu
hof3f4a
hofi4
ho4f3l
ho4f1o
ho4f3r
ho4fu
ho4fü
2hoi
ho2l1a2
hol3ar
hol3dr
1hole
ho2l1ei
ho2lem
hol3g
holin4
hol3k
hol3l4
hol3s
2holy
h3olym
1holz
hol4zene
hom2e
ho4me.
ho4mec
ho4med
ho4mel
h2on
hon2er
honi2e
ho1on
hoo2r
2hop
ho2pe
ho1ra
ho2rak
h1o2r2an
ho2rau
h1or3d
2hore
ho2rens
ho3ret
hor2fr
2h1org
hor3ta
hor2ter
h1ortu
h2os.
hose2
".
Definition de_23 : text := "ho2sei
ho3sl
ho4sla
2hosö
ho2sp
ho3spr
ho4ßene
2hot.
2hotr
2hot3s2
ho3un
hou4s
2ho2w1
ho3wer
h1ox
ho1y2
2hoz
1h2ö
2hö.
hö2c
hö3ck
2höe
3höhe
hörs4
hö2s1
h4ösc
h3öst
2hp2
h3pf
hp4lä
h3pu
2hr
hra2b
hr3a2c
hr3ad
hr1a2g
h1r4ah
h1rai
h3ramp
h1rane
hr3ap
hrau2c
h3räu
hr1c
hr3d
h2rec
h3r2ech
h3red
h3ref
hr3eff
h2r1eh
h4rei.
h4reib
hrei2ba
hrei2br
h3reic
h3reif
h4r3eig
hr2eini
h2reinl
hrei3th
h4r3ele
hren3z
h3rep
hrer2fo
h4rer4geb
hr2erh
hr2erk
h4rerla
hr2erle
h4rer4leb
hrer2lö
hr2erm
hrer2sa
hrer3st
hrer2tr
hrer4trä
hrer4tüc
hr2erw
hr2erz
h3re2s3
hress4
hrest2
hre2t
h2r1eta
h2r1eu
h2rev
hrg2
h2ri
h3ric
h4rick
hri2e
h3riesl
h3rin
hr1int
h4rist
h3ritter
hr3m2
h3rog
h3roh
h3ro2l
h4romat
h4rome
h4romi
h4romo
h4ron
h1ropa
hro4r
h3rou
h3rö2s
hr4s3ac
hr4s3and
hr4s3au
hr2s3em
hr2sen
hr2s3er
hr2set
hr4sh
hr2s3in
hrs5ka
hrs5kl
hr4s3of
hrst2
hr2su
hrs3z
hr2tab
hr2tan
hr2te2l
hr2th
hr2top
hrt3ric
hrt2s
h3ruh
hr1ums
h3rus
h3rut
h3rü
h4rüb
h2ry
hrz2
2hs
hsa2b
h4s3acht
h2s1a2d
h2s1alk
hs2alt
h4samt
h2san
hs3and
h3sann
h2s1as
h2sath
h2sato
h2saud
h2saut
h2säh
h2säug
h2schan
hs4co
hs2cr
h3se.
h2s3ec
hse2e
h2s1ehr
h2s1eie
h2seind
h2seins
hsela2
hse2lin
hs1emi
h2sendw
hsen3erg
h2s1ent
h2s1erb
h2s1erf
hs1erg
h2s1erh
h2serkl
h2s1erl
h2s1ern
h2serö
h2s1ers
hser2u
h2s1erw
h2serz
h2sex
h3s2ext
hsha4k
h2s1i2d
hs2im
h2s1ing
h3s2inni
h4s3ita
hs2kal
h3skand
hs1of
h2sop
hs1or
hs2p
h2s3pac
h3span
h4s3pani
hs3par
hs3pat
h3spec
h3spei
h3sperb
h2s3ph
hs3po
h3spra
h3spü
hss2
h4st.
h1st2a
hs3tabl
h3stad
h2staf
hst3alt
h3stan
hst3arb
h2s3tau
h2s3täu
h1stec
h1stei
h1stel
h2stele
h3stemp
h3s2terb
h3s2tern
h1s2ti
h2stier
h2stit
h1sto
h2stol
h2stor
h1str
hs3treue
hstro4
h1stun
h1stü
h2s1u
hs2ung
2ht
ht1a
h2tab
hta2bl
h2ta2d
ht2ag
ht2akt.
ht2akte
h2tall
h4talo
h2talp
h2talt
h4ta4m
h2ta2n
ht3ane
ht2ank
h2tap
h2ta2r
ht2a2s
h2t3asi
h2tasy
h2t3at
h3tat.
h3tate
h2tau
h3taum
h4tax
ht1ä
h2tär
hte2ber
ht1e2c
hte3cha
hte2d
h2t1ede
ht1eff
ht1e2he
h2teif
h2t1eig
h4t3eilz
h2t1eim
ht1ein
h2t1eis
h2t1eke
h4t3elas
hte4l3ei.
h2telek
h2t3elfe
h2telit
h2t1e4mi
h2temp
h4tenga
h4t3engl
h4t3en4ta
h4tentf
h4tents
hte3rel
hterer2
h2t3erfo
ht3erfü
h4terfül
h4tergeb
ht3ergr
ht1erh
hter4häl
hter4höhu
h2terkl
h4terleb
h4t3erleu
h4terneu
h2t3ernt
h4ter4prob
hter4reg
ht3erspa
hter4spar
ht3er2st
h4tersta
ht4erstr
hter4tra
ht3erwä
h2t3erze
h4t1e2se
h4t1ess
h4teta
hte4th
h2t1eu
h2textr
h2t1h
h4thei
h3thera
h3thes
h4thi
h4tho
h2t1i2d
h2t1im
h2t1i4n3
ht3ine
h2t1is
hti3t2
htni2
hto2
h2t1ob
htod1
h2t1o4f
h2t3oly
h2ton.
h2tope
h4tord
ht3rak
h3tran
ht3rand
h4t3ras
ht4rates
ht3rau
h2traub
ht4raume
ht3rec
h3treck
ht3rei
h2t3res
ht3ric
h4t3rieg
h4t3rin
h4t3riv
h2t3rol
h2t3ros
ht3röm
ht3ru
ht2sah
ht2sal
ht4s3a4n
ht2scr
ht2sein
ht2sel
ht2s3end
ht2seng
htse2r1
hts3eri
htsha4
ht3s2hak
ht4s3kr
ht2s1o
ht2sp
ht3spen
hts3tät
hts4tie
hts3trau
ht2stri
ht2s3tur
ht2s3tür
ht2su
htti2
htt4r
h3tub
htu2e
h2t1urs
h3tü
h4tüb
ht3z2
".
Definition de_24 : text := "hu2b1a
hu2b1ei
hu4bel
hu2b1en2
hu2bi
hu2b3l
hu2b3r
hu2bu
hu1c
hu4fa
hu2h1a
hu2h1i
hu2ho
h1uhr
h1uhu
hu2kä
hu2k1in
huko1
huk3t2
hu2l3a2
hu4lab
hu2lä
hule2
hu2l1eb
hu2l1ei
hu2lem
hu2l3eng
hu2lent
hu2l1er2
hu2let
hu2lid
hu2l1in
hul3l2
hu2lo
hu2l3ö
hul3s4
hu3m2a
h1umh
h1ums
hu2n
h1una
hun3d2e
hunde3s
hu3n2e
2hunf
hung2
hun3ge
hung4s
h1uni
2hunt
h1ups
2hur
hur3g2
hur2t3h
hu3sa
hu2so
hus2s3a
hus2ser2
hus2s1o
hus2sp
hus2st
hu2tab
hu2ti
hu2t1o
hu2t3r
hut2t
hut3te
hut2zen
hut2z3er
hut2zu
h2ü
h3über
h4übs
h3übu
hüf2
hüft1
hühne4
hüs3
2hv
hvil2
2h2w2
h4wall
hwe1c
h3weib
hwei4fr
h3weih
hweins3
hwein4sa
hwen2ka
h3werbu
h4werp
hwes3t
h4wirr
h3woh
1hyd
hy2de
hy3dr
hy2lor
4hyme
1hymn
h1yo
hy3os
1hyp
hy2pe.
hysteri4e
2hy2t
2hz
hz2a
h3z2o
hzug4
h3zw
hz4we
iaa2
i3ad.
iad2a
i1adn
ia3e2
iaf4l
i2ago
ia1h2
i1ai
i3ak.
i3ake
ia4kei
i1akt
i1al
ia2l1a2
ial3ar
ial3as
ia2lä
ial3b4
ial3d4
i3aleb
i3alef
i3alei
ia3lek
i3alel
i3alemp
i3aleng
i3alent
i3alep
i3alerb
i3aler2f
i3alerh
i3a2lerm
i3a2l1et
i3alex
i3a2lia
i3alim
i3a2lin
iall2i
i2alo
ia2lon
ia2lop
ia2l1o2r
ial3p
ial3sc
ial3t2
ia2l3u4
ial3z4
i3am.
iampe4
i1ams
i1an.
i1an2a
ia2nal
ian3alt
ia2nau
i1anc
i3and2
i1a2n1e2b
ia3n2er
i1ann
i1ans
ian2s3p
i3ant
i3anz
ianza4
ia1o
ia2op
i1ar
i3ar.
ia2ra
i2are
2i1as
i3as.
i4asc
i4a3sh
i2asi
i4aso
i4a3s2p
ias3s
iast4
i4asu
i4asy
i3at.
i3at2h
i4athe
1iatr
i3ats
i3au
ia3un
i2az
ia4zz
2i1ä
iä4mi
iär2
i3är.
iär3m
i3är3z
i3ä4tem
iä2ti
iä4tr
iät3s2
iät5sa
2ib
ib1art
i2b1auf
i2b1aus
i2baut
ib2bli
ibe2i
i2b1eig
ib3einh
i2b1eis
ibel4u
iben1
ibe4na
i4ber4geb
i2b3er2la
ibe1ro
i2bim
i2b1in
i2blad
i2bläh
ib3leis
i2bleu
i3blu
i3b2o
i2bö
ib3ric
i2b3roc
ib2ser
ib4ste
ib2un
i2b3unk
i2b3unt
ibus1c
2ic
i3ca
ic1c
ice1
ich1a2
ich4art.
ich1ä
i1che
ich1ei
ich2er
icherin5
i1chi
ich1l
ich3le
ich3li
ich6lor
ich3m
ich5mä
ich3n
i1cho
ich3ort
i2ch3r
ich2sa
ich4sele
ich2s1i
ich2sp
i4cht
ich2tr
i1chu
ich3w
i1ci
i3cke
icks2p
ickt2
i1cl
ic3la
ic3ra
2ida
id2ab
i3d2ac
id4al
id1a2n
i3d2ans
i3d4at
id1au
id2ax
idä1
id2e
i2dea
1idee
ide2en
id3eis
2idel
idel4ä
i2demul
ide4n1o
ide3ran
iderin4f
iderin4nu
ide1rö
id3er4reg
i3des
ide5sa
ide3so
ides4p
2idf
idge3
1i2di2o
idi4on
i4diot
2idk
idni3
i2dol
2idoo
i2dö
i2d3r
id4rä
id4rit
id4ro
id4ru
id2sp
1i2dy
ie3a2
ie2bä
ie2bl
ie2bri
ie4b3rü
ieb4sto
ieb4stre
ie1c
ie2cho
iech3t
ie2ck
ie2d3an
ie3de
ie2dr
ie1e2
ief3akt
ie2f1an
ie2far
ie2fau
ie2fäh
iefe2m
ie3fer
ief3f4
ie2f3l
ie4fonk
ief1r
ie2fro
ie2gl
ieg5li
ie3g4n
ie2g3re
ieg4s5c
ieg4se
ieg4si
ieg4s3t
ie3her
ie2h1in
ieh3r2
i1ei
iein3
ie1ind
i2e2l1a
ie3lam
ie4la2r
ie2läs
iel3d4
i2ele
iel3ebe
iel1ec
ie2l3eic
iel3eid
ie2lek
i4elen
ie2lene
ie2leng
iel2erd
ieler2e
ieler4fi
ieler2g
ieler6lebn
iel2erw
ieles4
i2eli
ieli2d
i1e4ll2
ie2lo2b
ie2lop
ie4lor
i2els2
iel3sz
".
Definition de_25 : text := "ielt2
iem2e
iemis2
i1en
i3ena
ien1a2g
ien4am
ie4nas
ien3au
i3enä
i2ene
ien1eb
ie2n1e4k
iener4fo
iener4la
i3enf
i3eng4
ienge2f
ienge2z
i3enh
ie2nid
ie2nim
ie4nin
i3enj
i3enk
i3enm
i3enn
i3e2no
i3enö
i3enp
i3enr
ie4n2s
i3ens.
ien3sc
ien3s2e
ien3si
ien3s2k
ien3s2p
ienst5ade
ienst3er
ienst3rä
ien3sz
ien4t3ar
i3enti
ien3tr
ie3nu
ie4num
i3env
i3enw
i3enz
ie1o2
ieo4b
ieo4f
ier3a2
ie2rad
ie2rap
ierb4
i3erbun
ier3d
i2ere
ie2reck
iere3ins
ie2r3eis
ie5rek
ie3r2er
ier3erf
ierer3k
ierf4
ierg4
i3ergi
i4eri
ie2rid
ierin3
ierk2
ier3l
i1ern
i3ern.
ier3n2a
i2erni
ie2rö
ier4re.
ier2s3eh
ier3sei
ier3sta
ier3ste
ier3te
iert2i
ier3z2
2ies
ie2san
i2esc
i2ese
iesen3s2
ie3s4pa
ie2spu
ies4serl
ies2st
iest4e
ie2stin
ie1str
ie1stu
ie3su
ie4t1a2g
ie2t1ak
ie2tan
ie2t1ap
ie2tat
ie2tau
ie4tent
ie2t3erh
ie2t3ert
i4ethe
iet3her
ie2t1ho
ie2thy
ie2to
ie2t1ö2s
ie2t3ri
ie2t3ru
iet2se
i3ett
iet3zw
ieu2e
i2e1un
ieu1s
ie2w3u
i1e2x
ie3zo
2if
i3fam
if1ang
if1ar
i2f3arm
if4at
i2f1au
if1än
i2fec
i2f1ef
ife4i
if1ein
i2felem
ifel2s3o
if2e4n1
ifens2
i2f1erg
if1erh
ife2s
if2far
if2f3l
if2fro
iff2s
iff4ste
if1in3s
i2f3l
if1lac
if4lä
iflo4
if4los
i3f4lü
i2f3r
i3fre
i4fre.
i4freg
if4rev
if4rö
if2s
if3sa
if3se
if3sp
if3sta
if2t3a
if2ted
if2t3ef
if4t1ei
if2te2l
if2tep
if2terk
ifte4s
if4t3esc
if4th
if2t1op
if2t3r
if4tri
ift3sp
ifts2t
ift3sz
if2tur
i3fy
2ig
i2ganb
i4g1ano
i2garb
ig1art
iga1s
i2g3att
igd2
i4gebrau
i2gefar
ige2füg
3i2gel.
ige3lau
i2geln
ige4me
ige2mis
ige4na
ige4nene
igener4f
ige2nid
ige2o
ige2pa
ige2ra
ig3erwer
ig1erz
ige2sel
ige4spru
i2g1ess
ige4steu
ige2tra
ige2tre
ige2woh
ig3hu
i2gim
i2gl
ig1lau
ig1län
i3gle
i4g3led
ig3lim
ig4na
ig5nah
i4gnä
i3g4neu
ig4no
igo3p
i2g3rad
i2g3re
i2grou
ig3s2a3g
ig4sal
ig3sä
ig4scha
ig4schr
ig3s2o
ig3sp
ig4spa
igs2pr
ig3stei
ig4sti
ig4s3to
ig3str
ig4stras
ig3s4tü
ig2t3r
igung4
2i1h
i2hans
i2har
ih1auf
i3he
ihe1e
ih1elt
ihe4n
ihenk4
ihe3u
ih3m
ih3n
ih3r2
ihs2
ih1um.
ih3w
ii2
i1ia
i1ie
i3ig
ii4ge
i1im
i3in
i1is
ii4sc
ii3t
i1it.
1i2js
2ik
ik1aka
ikaken3
i2k1akt
i2k1alb
i2k1alt
ik3amt
i2k1ana
i2k1ang
i4kantei
ikanten4n
i2kanth
ik1art
ik3att
i2k1au
ik1äh
i2k1är
i2keb
ik1ebe
ike2c
i2k1ed
i2k1ef
i2k1ei
ike4l1
ike2n1
ik1en2s
ik1ent
ike2ra
i2k3e4r2e
i2k1er2f
i3kerfam
i2k1er2h
i2ker2l
i2kero
i2ke3ru
ike4t
i2k1eta
i3ki.
ik1i2d
i3kie
ik1in
i3kin.
i2kins
iki1s
i2k3l
ik4län
i3k4leri
i3k4let
ik4lim
i3klu
i2kne
ik3nu
iko3be
i2k1off
iko3p2
ik1o2r
iko1s
i2köl
ik3rä
ik3re
i2kres
ik3rin
ik4ris
i3kro
i2krö
iks2
ik3sa
iks4t
ik3ste
ik3sz
ikt3erk
ik4t3esk
ik2t3re
ik5tri
ikt2u
i2k1uh
i2kup
i2kü
i1la
i2lab
i2l1ac
i2l1ak
il1a4ma
il1ana
il1ang
i2l1anm
i2lano
il1ans
il2anz
ilan4zer
i2larb
il1asp
i2l1au
i3laub
i3l2aufb
i1lä1
i2l1är
2ilb
ilb4l
il2c
il5chen
il2da
il2dä
ild3ebe
il2d3en4t
ild2erp
ilde2s
ild1o
il2dor
il2d1r
ild3t
2ile
il1e2c
il1ein
il1el
i2l1emb
i2l1e2mi
ile3ni
".
Definition de_26 : text := "il1ent
i2lentl
i2lents
i2l1er2d
iler2ei
il1erf
iler2fo
i2ler2g
i2l1er2h
i2ler2kl
il1err
i2lerri
i2l1er2w
i3l2erz
ile4th
il1ex
ilf2
il2f3l
il2f3re
ilf4s3
il2gl
2ilh
2ili
ilie4n3
iliga2
ili2g3ab
ilik4
i2l1ind
i2l3init
il1ins
i2l1ip
ili3pf
ill2an
il2lenn
il3l2er
il4lt
1illu
il2mak
il2m1ap
il2m1au
ilm1ei
il2min
il2m1or
2ilo
il2oh
il4on
il2op
i2l1o2r
i3l2ou
i3lov
il1ox
ils3ent
ils4to
ilt2
il3th
i1lu
i2lum
ilung4
i2l1ur
ilü4b
2ilv
il2zar
il2zau
ilz3erk
il2zwa
imad2
ima1i
im2al
im3anh
im1ans
i2marc
im3aren
i2m1arm
i2m1art
im2as
im4at
ima2tr
imat3sc
ima2tur
im1aus
i2maut
im3b
1imbi
i2meg
im1ein
i2mej
i2mek
i2mele
i2melf
im2en
i2m1er2f
i2m1er2l
i2m1er2z
i4me3sh
imes3s
i2meti
i2mew
imhau2
i2mid
im1i2de
i2mim
i2m1ind
i2minf
i2m1ins
im2mei
immen1
im2m3ent
1immo
im2mor
2imo
i2m1ob
i2mop
imo3re
i2mö
1imp
imp2fa
im3pf2o
imp2s
im3pse
im3sph
2imt
imt2e
im3t2i
imt3s2
imtu2
2imu
im2um
im1urk
2in.
ina2be
in3abu
in1a2c
i4nack
in1ad
i3nald
inaler2
ina2lin
in2alp
i2n1am
in2an
in3an.
in3ana
in3ann
i5nar.
in2ara
i2narb
inas4
i4n1asb
in3att
i2n3au
2inä
i2n1äh
in1äs
2ind.
inda2
ind2ac
in2dal
in2dan
2indä
2inde.
2inden
in2dene
inderer4t
inder3t
inde3sp
1index
in4dh
ind2i
1indik
in3dö
2indr
ind3se
ind2spe
1indus
in3d2ü
2ine
in1e2c
i3nee
ine2en
i2neff
in2elen
ine2n1
ine3nä
i2nener
inen3s
i4nen2zy
ineo4
i3ner.
i2n3erbi
in2erha
i2ner2he
in3erle
i4ner4leb
iner2lö
i2nersa
i2n3er2tr
iner4trä
i3nes
inesi2e
i4nesk
ines2t
in2et
in1eu
ine3un
i3né
in3f2
1infek
1infiz
4inflü
1info
inf4r
2infre
2inga
in2g1af
in2g1a2g
in2g1al
in2gam
ing1ar
2ingä
3ingeni
in3g2er
in4g3er2w
inges4
2ingi
2in2gl
2ingr
2ings
ing4sam
ings4por
in4gt
2inhaa
1inhab
4inhaltu
2inhar
2inhau
2inhe
2ini.
in2id
ini3de
2inie
2inig
inig2a
ini3kr
2inis
ini3se
init2
i3nitz
3inkarn
inkels4t
in2k3ent
ink4er
in2kro
in3k2ü
inma4le
2inn.
in4nas
inne4n
2innl
in2nor
1innta
2ino
in1od
ino3e2
in3ols
in1or
ino1s
i3no3t
i2n1ou
i1nö
in1ö2d
2inr
2ins.
ins2am
in4samt.
in3sat
insch2
2inse.
in2seb
2insed
2insen
2insk
in3skor
in4sl
in4sm
in3sof
ins2p
3instal
in2s3tät
4inst2e
ins2tec
in3s4tip
3instit
2instra
in2st3ro
in2strü
1insuf
in2s3umw
ins3umz
in2sur
in3sz
2inta
2inte.
1integ
in3tei
2intep
2int2h
inthi1
in3ti
int2o
2intö
2in3t4r
4inträ
in5tri
3intrig
int3s
i2n1u
i4nuh
in3unz
2inverm
invil2
i1ny2
in3z2e
inzel4ler
in3z2i
in3z2sc
inz2u
2i1o
io3a
iob2l
io1c
io2d
io3da
io3e2
i2of
iof4l
i2oh
i2ok
io3k4r
i3ol.
io3li
i3ols
i3om.
i3oms
ion2
i3on.
ional3a
ion3an
io2n3au
i2onc
ion3d2
io4nee
i2onf
i4oni
i3ono
io2nor
i3o4ns3
ion4sa
i2on3t
i2ony
i2o1o
i2op
i3o4pf
iopi3
i3opt
i2or
i3or.
i3orc
ior2e
iore4n
i3org
io1r2h
i3orp
i3ors
i3ort
i3os.
io3sh
ios2p
i2o1st
ios2u
i2o3sz
io3t
i3ot.
iote3l
i4oth
iot4r
i3o4ts
io4tt
i2ou
i2ov
i3ox
i2oz
i3oz.
i1ö2k
i1ön
i1ös.
i1öst
ip2an
i3ped
ip4el
i3per
".
Definition de_27 : text := "2ipf2
i3pfan
ipfe2
iph2
2ipi
ipi3a
ipi3el
ipi3en
ip4lu
ip2pan
ip3pe
ipp3f
ip4pl
ip4ps
ip3pu
ip2sa
ip2sei
ip2sp
ips3t
ip4sta
ip4stü
ipt2a
ip2ter
ipt3ers
ipt2i
ipt2u
2ipu
2iq
i1r2a
i3ra.
2i3rad
ir4al
i3ras
irat2
i1rä
ir1äh
ir2b3l
ir1c
ir2ch3i
ir2ch1o
ir2e
i3ree
2irek
ire4na
ir4er
i3ré
irg4s
ir2i
2irig
2irk
irke4n
ir2kene
ir2k3l
irk4s3c
irk2u
irli4n
ir2m1a2g
ir2mak
irm1au
ir2mä
ir2m1ei
irme4n1
ir2m1o2
irm4th
ir2mum
ir4munt
2irn
ir2n3a
ir4nat
ir4nei
ir2no
i3ro
i1rö
irpla2
irre4l
ir2rh
ir2schl
ir2schm
ir2sch3r
ir2sch3w
ir3se3
ir3sh
ir2st
irt2s3t
2iru
ir1u2m
iru2s1
i3r2ü
i2sac
isa4m3
i4samp
i4s1amt
is2ap
isa2r
is3are
i3sat
is1att
i2s3au
i2säh
i2s1än
2isb
i2sca
i2schab
i2schan
i2schar
i3s2che
i4schef
i4sch3e2h
isch3ei
ische2m
i4schemi
i4scher4z
i2schin
i3sching
i2sch3l
i2schm
isch3ma
i2schna
isch3ob
isch3re
isch3ru
i2schüb
i2schwa
i4schwir
i2schwo
i2sch3wu
i2schwü
i2scr
2ise
ise3a
ise1e
iseh2a
ise3h2i
is2eind
is4eli
i4sel4ter
ise2n1
ise4nal
is2end
i2senho
isen3s
is2ep
ise2r3ei
is1erg
i2s1erh
iser2he
i2s1erm
iser2u
i2s1es4s
is2et
i2s3etat
i3seth
i3s2eu
2isf
2ish
2isi
i3si.
isi2a
i2s1i2d
isik2
i2sim
isin3g4
isi1s
i4ski
i4sku
is3la
3islam
2isma
2ismi
ismu2
is1of
i3soh
1i2sol
2is4o2n1
iso4nend
isono2
i2sop
is1ort
3isot
i2s1ou
is1o2v
2isp
is3pan
i2spar
is3pe
is3pic
i2spro
is3sa
is4s1ac
is4sau
is4s3chen
issen4s5tü
isseri4e
isser2s
is2st
is3sta
is3sto
iss3tr
is3strä
is3stu
is2sum
is3tab
ist3a2c
ist2an
is3tang
ist1ap
i1stat
is3täu
is4tb
is4tc
is4td
ist2e
i1stel
iste4n
ister4ras
i1steu
is4tf
is4tg
ist2id
i1stil
istin4f
is4tk
is4tl
is4tm
is4tn
is3t4o
is4toc
is3tör
is3tr
ist4ra
i3s4tram
istri3en
is4tro
is4tru
is4ts
is4tt
i1stü
is4tv
isu2m
isum3p
isumpf4
i2sü
2isy
ißer2s
iß3ersc
i2ßerse
it1ab.
it1abs
ital3a
it1alt
it1a4m
ita3ne
it3anr
ita2po
it1app
itar5b
it1a2re
it1art
i3tat
it1au
i3tauc
i2taut
2itä
it1änd
i2t1äs
ität2
it1eff
it1e2he
i2t1ei
i4teic
2itel
ite4l1a
i2telek
i2t1emi
i2temp
ite2n
iten3s2
i4tents
i2tepo
i2t3er2fo
iterin4d
i4ter4klä
it2erö
i4tersche
i4t1esk
i2t1ex
i3text
2i2th
i4th.
i4thä
i3thr
i4ths
i4thü
i4thy
1itia
i3tic
i2t1id
1itii
iti2kr
it1in
i3tis
i4tiso
iti3sp
iti2v5a
itiver3f
it3le
itmen2
2ito
it1ob
i3toc
i2t1of
ito2p
it1orc
it2os
2itr
i5tra.
i2t3rad
i3tradi
it3raf
it3ras
it3rau
it3räu
it3re
i4tren
it4ret
it3rob
it3rom
i2t3run
it3rut
2its
it2sa
its1a2g
it2s1e
itse2h
its3e2r1
it4sh
it4sm
its1or
it4stras
its3trau
it2sur
2itt
itt3ac
it2tan
it2teb
it3ter
itt3hä
it2tob
it2top
it4tri
itt4schi
itt2se2h
itt2sei
itt2sp
itt2sti
itt4sz
it1uh
it1ums
it2ung
i2tuns
ituran2
it1urg
itut4
i3tü
i4tüb
ity1
ityl2
2itz
itz3erg
itz3erl
itz2erw
it2zö
it2z3w
2i1u2
i2u3l
i3um3
iu4ma4
iump2
ium4se
ium4ste
i3un2
i2up
i3us
i1ü
iü4be
2iv
i2v1ad
i2v1a2g
i2v1ak
i2v1am
iv1an
iv4at
i2v1ä
i2veb
i2v1ef
iv1ei
iv1elt
i2v1ent
i2v1ep
ive3re
".
Definition de_28 : text := "iv1erh
iver4kl
iv1erl
iver3s
ive3s
i2v1ex
i2v1im
i2v1ind
iv1int
i3vol
ivo3re
i2v1r
i2vun
i2v1ur
i2vü
2iw
iwur2
2i1x
i2xa
ix2em
i3xi
ixt2
i1y
2iz
iz1a
iz2ac
i2zag
i2zan
i2zap
iz2arr
i3z2as
i2zat
i2zau
i2zä
i3ze
iz2ei
izeits2
i2zele
ize2n
i4zener
i4zentz
i4z1erl
izid3
iz1ir
izi4th
izo4f
i2zö
i2zuna
i2z3w
i3z4wi
í1
ï1
1j
j2a
jab4r
ja1c
jah4r3ei
jahr2s5
ja3l
jal2a
ja4lt
ja3ne
jani3t4
jas2o
ja1st
jat2
2jd2
jda3
jd4an
je2a
jean2s
je2g
jek2ta
jek2ter
jek2tin
jekt3o2
jektor4
jek4t3r
jek6tri
je3na
je2p
je3r
jer2e
je4rr
je4rs
jes3t
je2t1a
je2t1e
je4t3h
je2tin
je4tor
je2t3r
jet3s2
jet3t
je2t1u2
je3v
je3wo
ji2v
2jm
joa3
jo2b1
job3r
jo2da
jo2i
jol2a
jong2
jo2p3
jo1r2a
jor3d2
jo1s
jo2sc
jos4t
3jou
jou2l
2jt
jty1
j2u
ju2b3l
jugen4
jugend3
ju2k
jul2i
jung3s4
ju3ni
ju3r
jur4a
jur2o
ju4rt
jus3t
ju3t2e3
jutel2
2jv
1k
ka2ans
ka3ar
2k1abb
kab2bl
2kabd
2k1a2ben
2kabf
2kabg
2kabh
2kabn
2k3a2bo
2kabr
2k1a4bs
2k1abt
2kabw
2kabz
ka1c
kade2r
2k1adm
2k3a2dr
2kadv
ka3f4l
ka3fr
kaf3t2
kag2a3
ka1in
kaken2
ka3kl
kak6lan
2k1akt.
4kala.
kala3b
ka2l1a2d
ka2lan
ka4l3d
ka4l1eh
ka2lens
kal3eri
k2alk
kal2k1a
kal4kan
kal2k3l
kall2i
2k1allt
ka2l1on
ka2lop
ka2l1os
kal2tex
kal4th
ka2lu
ka4mat
kamp4f3en
k2amt
kan4al
ka4n1a4s
ka2nau
2kanb
kan3d2
2kanda
2kandä
kan2e
2kanf
2kanim
kank4
2kanl
2kanom
2k1anor
2k1ans
k2ans.
4k3antenn
ka3nu
kan2um
2kanw
2k1anzu
2kanzü
ka2o3
ka3pr
3kara
2karbe
2karc
k2ard
kar3d2a
3kare
4k1area
ka2r3ent
k2arg
ka3r2i
kari3es
k2ark
2k1arm
kar4pf
k2ars
k2ar3ta
k1arti
2kartik
karu4
k2arw
3k2asc
kas2e1i
kasi1
kas2o
ka4s3p
ka2s3t
2k1ast.
ka4ste
kas4tras
3kasu
ka3sz
ka2tab
ka2tan
k3atel
kate2n
ka3t2h
ka4t3r
kat3se
katt4
ka4ue
kau4fer
kau4f1o
kauf4s3ag
kauf2sp
kauf4sti
k2aus.
2k1auss
2kausw
kau3t2
2kauto
ka3ve
3kaz
käl3
k1ä4mi4
2k1änd
kär2
2k1ärg
kä2s1c
käse3
kä3th
2kb2
k3be
kbo4n
kb4ri
kbu2s
kby2
kby4t
2k1c
k3ch
2kd2
k3da
kd4rö
ke2ben
2k1e1c
ke2di
2k1eff
kefi2
kege2
kegel3e
ke2gl
ke2he.
ke2hen
kehr2s
kehr4s3o
2k1eic
2k1eig
kei2li
ke2im
2k1ein
kein2du
kein4e
k1ei1s
2keise
keit2
ke2l1a
ke3l2ag
kel3am
ke2lä
kelb4
keld4
kel3eis
2ke2lek
ke2l1en
ke2l1er
kel3l4e
kell2i
ke2l1o2
ke2lö
kel3sk
kels4tern
k4elt
kelt4e
2k1e2mi
2k1emp
k2en.
ken1a
ken3au
ke2nä
kend4
ken3dr
ke2n1e2b
kenen1
ke4nene
ke4nens
kener2n
kene4t
2ken2gag
k3en4gel.
ke2nim
ken3in
2kenlad
2kenläd
kenn2a
kenn2e
ke2no
k2ensa
2ken2sem
ken3s2i
ken3s2k
ken3s4tei
ken3sz
k3en4te.
k3en2ten
ken4ten.
2kentf
4kentg
ken3th
2kentl
2k1ents
2kentw
2kentz
kenvo2
ke3ny
k2enz2
ke1o2
2kep
ke2pl
k2er.
ke1ra
ke2ran
ke2ras
ke2rau
ke2r1ä
ker2ble
k2erc
2kerd
k2ere
ke2r1e2b
ke2rec
ke3reig
ker3ein
k3eremi
2kerfah
k2erfam
ker2fo
k3er2geb
2kergu
ke4rin4nu
kerin4st
kerin2t
k3erken
k2erko
k3er2lau
k3er2leb
k4erlebe
ker3m
ker2na
ker4nei
2k3er2neu
kern3eur
".
Definition de_29 : text := "k1ero
k2e1rod
2keros
ker4reg
k2ers.
2kersa
kert2
ker4werb
kerz2
k1erz.
ker2zeu
2k1er2zi
k2es.
ke2sa
k2esc
k1ese
ke2sel
kes3pa
kes2sa
ke2t1a
ket2ag
kete4
ke2t1eb
ke2tel
2k1e2th
ket3ha
ket3s
2ke2tu
keu4schl
2k1e2va
2k1e2x
2kf2
kflei2
kf4lö
k3fu
2kg2
kga2s1
kge3s
k3go
2k1h2
k3he
k3hu
ki1a
ki2ad
ki2ag
ki3a4k
ki3a2r
ki1c
4kicl
ki3d4r
k2ids
2kidy
ki2el
kie2lei
kiel3o
2kiern
kier2s
kie4z
2kif
ki3f4l
ki3f4r
ki3k
kik4l
2ki3l2a
2kilä
4kile
4kili
2kim
ki2nä
2kindex
2k1indi
2k1indu
2k1inf
k2ing
kin2ga
kin4g3ent
king3s
2kinh
k2ini3
kinik2
ki3n4o3
kinos2
kinot4
kin3s
2k1inse
k1inst
2k1int
ki3or
kio4s
3kirc
2k1i2so
kis2p
kis3s
kist2
kis4to
kiv2
kive4
2kiz
2kj
k3jo
2kk2
k3ka
kkab4
kk4ne
kl2
2kl.
4kla.
2k1lac
k3lamp
klan2
2kland
klan3du
k4lar
k1last
k1lauf
k3laug
2kläd
k2lär
k2le
4k3le.
kle2br
k3leg
2kleh
kl4ei
klei2e
k3leit
k3lem.
3klemp
kle2o
2k3ler
kle2ra
2k3leu
kle3us
2klic
k2lien
k2lif
2klig
3k2lim
k2lin
k3lin.
3k4lina
2k3lind
k4link
k2lip
k2lir
k2lisc
2klist
klit2s
2k3liz
2k3loc
2klok
3k4lop
k3lor
klost4
2klöc
2klöf
k2löst
k4löt
k1lu
k4lub
k2lud
k2lug
k2lum
klung4
2klux
2k1lüc
2kly
2km
kma2la
k2n2
k4nac
2k5nach
2k3nad
2knah
2k3nam
2k3nar
kn4at
2knav
2k3näp
k3ne
k4nec
kne1e
2knes
kne3tu
2knetz
4kney
kni2e
2k3niv
kno2b3l
k4nol
2knorm
2knov
2k3num
ko3a
ko2al
kobal2
2kobj
kob4s
koe2
kof3f2
koffe3i
kohl2e
kohle3i
koh3lu
koka3
ko2kl
ko3l2a
ko3le
kol2k3
3kom
komer3
4komn
ko4mu
k2on
kone2
ko2nem
kon3s4
kont6en
ko2nu
ko3on
2kop.
ko2pal
ko3pat
ko3pe
2koper
ko4pf
kopfa2
kop2fen
kop4f3err
3kopp
kop3s
ko3r2a
kor2ba
kor2bl
kor2br
2k1orc
korder2
kor4derg
ko3re
ko4rel
2k1org
ko3rin
kor2k1a
kor4kr
kor3m
k1orna
kor4nac
kor2n3ä
kor4no2
2korpi
k2os
k4os.
ko4sk
ko2sp
3k4ost
ko3stei
ko2stü
ko4ter
ko3t2i
koti4n
koti6ne
kot4r
kot3s2
kot2tak
k1ou
ko3un
3kow
ko2we
2k1ox
köde2
k2öf
k1öl
2kp2
k3pf
2kq
k3qu
k2r2
2k3rad
2k3rah
k4ral
k3rats
2kraum
k4raw
k4raz
k4räc
2kräd
k4räf
k4räm
k4rän
2k3räum
2kre.
2k3reak
2k3real
k4reb
4k3rec
2kred.
2k3rede
2kredn
2kredu
2k3ref
2kreg
2k3reic
kre1i2e4
kreier4
k3reif
2k3reih
2k3reim
krei4sei
krei2s3i
krei2st
2krel
k3ren
2kresu
2k3rh
2krib
2k3ric
2k3ries
2krip
k3risi
k4roa
kro3a4d
kro3b4
k4roch
4k3roh
k4rok
k4ron
k4rop
2krot
krot4r
k3rou
2kröh
2kruf
2k3run
2k1s
ks3a2b
ksa4k
k4s1amt
k2san
ks3a2r
ksa2s
k2sau
ksau4e
ksau4f
k2sav
k2säh
k3s2c
ksch4
k2s1e2b
k2s1ec
k3s2ed
ks1ei
ks2eid
ks2eif
k2seind
kse2le
k2s1eng
k2s1ent
ks1er
ks2ere
k2serf
k2serg
k2serk
k2serl
k2sers
k2serw
k2s1ev
k2sex
ks3ha
k4s1i2d
ks2im
k2s1in
k2s1is
k3s2ke
ks3ket
ks3kl
ks1o2
kso4f
ks4on
k2sop
k2sor
k2sö
k2spal
k3s2pat
k2spä
k3spe
ks4pel
k2sph
ks2por
ks2pul
ks3s2
kss4t
kst2
k4st.
kst4a
k2s3tal
k2s3tanz
kstat4
k3stäl
k3stei
k4steil
".
Definition de_30 : text := "ks4tel
ks2tep
k2stier
k2stit
k2stor
k2strop
k2stuc
k2stum
k2stur
k2stüt
k2s1u
ks2zen
2kt
kt1abr
kt1abs
k2t1ad
kt1akt
k3tal
kt1am
kt1an
kt2and
k2t1a2r
kta4re
kta3ri
k2t1au
kt3aug
ktä3s
kt1ein
k2tek
k4t1ela
kte4n1
kten3s4
k2tent
k4tentf
k4tents
kten3z
kte4pi
kte2ra
kte3ran
kt4ere
kt1erg
k2t1erh
kter3m
k2terö
kte3ru
k4t1eti
k2tex
k2t1h
k3ther
k2t1i2d
kti2me
kt3ind
kt1ing
kt1ini
kt3inn
k2tint
kti2s1e
k2tiso
kti2ter
kto3b
k2t1of
kto3ren.
k2t3ram
k3t4ran
kt3ras
k2t3rau
k4tref
ktro1s
kt3run
kt3rü
kt3s4a
kt3sä
kts2el
ktsen1
kt3si
kts1o
kt2sor
kts2p
kts4t
kt3s2z
ktt2
k3tub
kt1ums
k2tuns
k3tü
k4tüb
kt3z
ktz4w
ku2al
ku1c
kud4r
ku2h
2k1uhr
ku3la
ku3l2e
ku3l2i
4kulp
kul4to
kul2tr
k2um.
2k1umb
k2um4e
2kumg
2kuml
kum2sa
kum2s3p
k2u3n2a
kun3da
kund2e
kunden3
kunft4s
kung4
2kunm
kun4s4
kunst3
4kunt
2kunw
4k1up.
kur2bl
ku2rei
kuri2e
kuri4er
2k1urk
2k1url
ku2ro
kurs3c
kur2s3p
kur2st
kur3sti
2k1urt4
kur3tsc
3kus
kus3a2r
ku2schl
ku2sp
ku2s3t2
ku2su
4kut.
kut2a
kuto3
kü1c
3küne
3kür
kür4s
2kv
k3ve
2kw
2kz2
kze3l
k3zu
3la.
laa2
la3ar
l1ab
3l2ab.
lab2a
la2bad
l2abä
2labb
lab2br
2labd
lab2e
2la2ben
4labf
2labg
2labh
3labi
l3a2bit
2la2b3l
2labn
3lab2o
4labo.
la3b4ra
lab4res
la2bri
2la4bs
la2bus
2labw
2labz
la1ce
la2ce.
l4ache
lachter4f
lacks2
1lad
2l1ad2a
2ladd
3laden
la3d2i
2ladj
2l1adl
2ladm
2l1a2dr
3l2adu
2ladv
4laf.
la4f1ei
la4f1er
laf1r
4laf3s
laf3t4
la4fu
la2g1a
lag3d
lagen3d
l2ager
lagerin3
4lagg
la2gil
la2gin
la2gio
lag3l
la4g3n
la2go4
lag3str
2la3ho
3lai
2l1akad
lake2
la4kes
la4kin
l2akk
la3k4l
la4kro
lakt2
2l1al
la2la
3la5la.
3lali
4lalo
4lalt
lami3t
l4amm
lam2m1a
1lammf
la4mor
l2amp
2l1amt
lamt2s
la4mun
la2na
la3nan
4l1a4n4at
la4nau
2la2nä
3l2and
l4and.
lan2d1a
lan4dam
land3au
l4ande
lan4derh
lan4d3erw
lan4d3erz
lan4d3inn
l4an2dr
lan3dri
land3rü
lan3erd
laner2f
2lanf
2langa
lan2gan
2l3angel
lan4g3esc
lang3s4
l2anhe
3lan2i
4lanim
4lanl
2l1ann
l1ano
la2nof
2l1anp
2lans
l1ansi
3lansw
2lantr
2lantw
2lanw
lan4zerg
lan2z3w
3lao
2l1apf
la2ph
2l1a2po
lap2pl
la2q
la2r1an
2larc
lar1e2b
la2r1ei
la2rel
la2rene
larf4
3lar3g
lar3ini
lark4l
2larm
2l1a2rom
l1art
2lart.
lar2ter
lart2h
l3arti
lart4r
3laru
l2as.
la2sa
la4s3aa
la4sam
la4sä
lasche2
4lasd
la3seb
la2sei
la2s1e2l
2lash
la2sin
la2sis
la2so
2la4sp
3lasser
l2a2st
las4t3an
last3ar
la4ste
las6t3ri
la4stu
la3t2e
2l3a4tel
l4at2i
la5tio
2latm
lat2o
la2tö
la2t3ra
lat4ri
lat2s
lat3st
2lat2ta
lat4tan
lat2tex
lat2t3in
lat2t3r
latzer2
1laub.
lauben4s3
lau2b3r
laub2se
lau4fel
lau4ferl
lau4fin
2laufn
lau4fo
1laug
lau3gl
lau3i
2laun.
la4us
3l2aus.
2l1ausb
lau4scha
2lausd
2l1ausf
2lausg
2l1ausl
2lausr
2l1auss
lau2st
2lausw
2lausz
2lauto
lau2tr
la3va
lave4n
1law
lawa4
1l2ax
la2xel
l2ay
lä1c
3läd
1lähm
2l1ähn
lä2i
2lämt
1länd
2l1äpf
2läq
l2är.
lär2ma
l1ärme
2l1ärz
lä2s1c
2lät
2läub
2läuc
2läue
1läuf
".
Definition de_31 : text := "2läug
2läx
1là
2lb
l3bac
l2bant
lb3a2ri
lb1ärm
lbb2
lbb4r
lbby4
lb2ei
lbei4ge.
l2b3eink
l2b3eise
lbe2ral
lber2ei
l2b1e4ta
l2b1id
l2b1ins
lb4lad
l3b2lat
l3blä
lb3le
l2bled
l2blic
l3blo
l3b2lö
l3b2lu
l2b1o2ra
lb3rea
lb2s
lb3sa
lb3se
lb3si
lb3sla
lb3sp
lbs4t
lbst3ac
lbst3ei
lbst1u
l2b1uf
l3bum
lbu4n
lbzei2
2l1c
l3ca
l3che
l4chei
l4chent
l3chi
lch3le
lch3li
l3chlo
lch3n
lch3r
lch3s2
lch3ü
lch3w
l2ck
l3cl
l3co
2ld
ld3a2b1
ld2ac
ld3a2ck
l2daf
lda2g
l2d1ah
lda2i
l2d1ak
l2d1al
ld1ams
l2d3a4n
ld1arm
ld1ass
l2d1au
ld3aus
l3däm
ld1är
ld1äs
ld1ät
l3de.
lde2ben
l2dei
ldein5
l2d1elf
l2d1e2mi
l2d1ems
lden3erg
l2dentl
l3der.
l4d3er2fa
l4der4geb
ld1erh
l2der2he
ld2erl
ld3erlas
ld2ern
l2d1er2p
lder4tr
lde5sa
l2d1es2s
l2dex
l2d1id
ld1i4mi
l2d3ion
ldo2b
ld2on
l2dop
ldo2r
l2d1ori
ld2os
ldos3t
ld2ö
ld3r
ld4ram
ld1ran
ld1rä
l2dre
l3d4ris
ld1rol
ld4ru
ld5rub
ld5rut
l2drüc
ld3sa
ld3ska
lds2p
ld3st
ldt4r
ld3tu
l2d1ul
l2d1um
ldwes4
1le
le2ad
le2an.
le3ar
3leba
leben2s3
le2bl
3lebr
le2b3re
lebs2
2lec
lech1a
le2chi
lech5t4e
le2dit
le2dr
le1en
le2er
lee4ret
le3f2a
2l1eff
lef4o
le2g1ab
leg1as
le2gä
legi3en
le2gl
leg4r
3leh
4lehe.
leh3r2e
4lehs
4leht
l2eid
lei3ere
lei2fan
lei2fei
lei2fi
leif3s
2l1eig
lei3gl
3leih
lei2hau
lei3l2
leim3p
3l2ein.
lein2du
l4eine
lei4nerb
le2inf
le2ini
2leink
2l3einsa
2leint
l2einu
le2is
leisch3a
lei4schei
lei4scho
lei4schr
lei4sern
l1eisf
leis4s3er
l4eist
lei2ßer
l2eit
lei2ta
leit5ersc
lei4to
lei5tri
leit3s2
leits4t
2leiw
3leko
2lektr
2lekz
3l2ela
le2le
2lelek
2leleme
le3len
leler2
le3les
2lelf.
2l1elfe
l2eli
l2em.
le3mal
le2mau
le2m1ei
lem4en
3lemes
3lemet
le2mid
lem1o2
le2mor
4lemp
lem3s
le2mu
le4mun
l4en.
len1a2
len3ab
le4nad
le4n3an
le4n3a4t
le2nä
2lendet
4lendl
l1endp
4lendun
le2n1ed
lenen3er
4lenerg
le2neur
2leneuv
len2gag
len2kau
len2k3lo
len2klu
l1enni
le2no
len4sein
2len2sem
len3ska
len3sz
3lenta
2lentg
2l1entk
2lentla
2lentn
l3entro
2lentrü
2lentw
lent4wä
3lentwet
2lentz
le4nz
lenz2a
len4z3eig
2lenzy
leo4f
le1o2s
2lep
l1epe
le2pen
3lepf
4l1e2pi
le4pil
4lepoc
3lepr
l2er.
l2e1ra
le2rag
le2r3ap
le2ra2s
le2rau
le2r1ä
le2r1e2b
ler2e3c
2lereig
le2r3ei2m
le2r3eis
le2rel
le2reng
l2erer
le2rerg
le2rers
le2re4t
2l3erfas
2l1erfo
l2erfr
l2erfüh
l1erg
l2erga
2lergeb
l2ergef
3lergeh
4lergen.
l2erger
l2erges
3l2ergew
2lergi
l2ergl
l2ergr
2ler2heb
2lerhol
leri2e
lerin2s
lerk2
3l2erka
l1erkl
l2erkle
3l2erko
ler3kr
3l2erkre
3l4erlebe
3l2erlei
2lermä
2l3ermüd
ler2nal
ler2nar
l4erne
ler4nei
2l1erö
3l2erra
ler2ric
l2errü
l4ers.
l1ersa
2lersat
lers4k
3l4ersl
ler2sto
lert4
ler4trä
le2rup
l4erwa
ler2wer
2ler2wo
2l1erz
ler2zä
l3erzeu
ler2zo
l4es.
les2am
les2e
lese1i
2l1esel
le3s4h
lesi1
le3s2k
le3so
le2spo
le4ss
lest4
le1sta
leste3
lester4i
le1sto
le1str
3lesu
4lesw
2lesy
le2tab
2le2tap
2le2tat
l1e2th
le3tha
2lethi
let2i
letsche4
let2top
lett1r
letts2
le2u
4leue
3le3u4f
le4uk
2l1eul
le3unt
le4ur
2leuro
3l2eut
l1e2vol
".
Definition de_32 : text := "2lex
3lexd
3lexik
le2xis
1lé
2lf
l3fac
l3fah
lf4at
l2f1ec
lfe1e
lf3einh
l2feis
lf2en
l2ferei
lfe2rel
lf1erl
l3fjo
lf4lä
lf3led
lf4lö
l3f4lu
lf3ram
lf3res
lf4ru
lf4rü
lf2spe
lf2sti
lf2su
lfun2
lfur1
2lg
lgab4
l3gas
lga3t
lgene2
lgeräu3
l2geti
lg2i
l3gle
lg2lö
l3go
lg2p
l3g4ra
lg3re
l3gro
lgs3t
lgung4
2l1h2
l3he
3lhi.
l3ho
l3hu
1li
li1a
lia2b
li2ad
li4am.
lian2g
li2ast
3lib
libi1
lib4r
li1c
lich2ta
licht5ersc
lich4to
4lick
li2cka
li2cl
li3d2a
l1ido
l2idy
liebe4s3
lie2br
3liefer
li3efl
lie4n1a2
li3ene
li3en3s
lien3t
li2er
lie2rei
li3ern
lie2s1c
lif3ti
3lig
liga3s
li2g3ers
lig1l
lig4n
li3ker
lik2i
lik2o
likop4
lik2sp
lik2ter
lik4th
lik2ti
lik4t1o2
lik2u
li3l
lil2a
li5lie
li4ll
li3m2a1
limas4
lima3t4
2limm
3limo
2limp
lin2a
lin3all
li3nar
4lindi
2l1indu
li2nef
li2neh
li2nep
li2nes
2l1inf
ling3l
lings3
lingst4
2l1inh
li5nie
2l1inj
lin2kan
lin2kar
link2s3
lino2
li2nol
l2insa
2linsel
2linsp
2linst
2linsu
2linsz
2l1int
l2intu
li3n2u
2l1inv
2linz
li2o
li4om
li3o2st
3lipf
3lipt
3lis.
li3s2a
li3schm
li2schu
lis2h
li3shi
3lisk
2l1isl
2l1i2so
li2s2p
liss4
3li2st
li2t1a2d
l1i2tal
lit4an
li3t2ä
l2i3t2e
3liter
li3th
li4t3r
lit1s2
lit3se
lit3sz
li3tu
li4tur
litz4er
3liu
li2vea
live4n
li2ves
livi3e
li3vr
4lixi
li4z3ä
lizei3
2lj
l3ja
2lk
l3kale
lk1alp
l3k2an
l3kap
l3kar.
lk1erd
lke3r2e
lk2l
lk3lad
l3k4las
lk3lic
l3k4lu
lk4ne
lk5ner
lko4f
lk1ofe
lkor2b1
lk3roc
lk2s1
lk3sän
lk4sb
lk3si
lk4sm
lk4spe
lks3t
lkt2
lk2ü
2l1l
l2labk
l2labt
l3labu
lla2der
l3lage
lla3gl
l2l1am
lla4ma
l3lame
ll2ami
ll2anb
lla2ner
lla4ni
l3lans.
ll1anz
l2l3appl
ll1arm
ll1a4sc
l4latm
ll1att
l3laub
ll3aufg
llau4m
ll1aus
ll3axt
ll1äm
ll1är
llb2
llb4l
llch4
ll3d
lld4r
ll3ebene
l3lec
ll1ech
lle3er
l2l1ef
ll1eic
ll1eim
ll2eis
l2leise
lle2la
lle2m
l2l1emi
l3len.
lle4na
ll3endl
llen3dr
ll3en4dun
lle4nens
l4lentf
l2lents
l3lep
l3ler.
lle2ra
ller4eig
l4lerfas
ller2fo
ller4geb
l4lergene
l2lergo
ll3erho
ll3erkr
ll3ermi
ller4müd
l2l3ernt
ll3ertr
ll2es
lle4th
ll1exe
llg2
lli2gan
l2limb
l2l1ind
l4linf
l4l1ink
ll1ins
ll3k
ll3l2
ll3m2
ll5mit
ll3n2
ll1ob
l2lobe
l2l1o4f
ll3ol
l2lope
ll1opf
ll1or
l4lorb
llor2g
l2lo2ri
l2l1ou
l3low
ll1ox
ll2s1es
ll3ska
ll2spr
ll3t
llt2e
llt2i
llti2m
llt4r
ll5tri
ll4ts2
ll1ur
llus5t4
l3ly
ll3z2
llz4w
2lm
l3ma.
l2m3a2b
l2m1ad
lm1a2ge
lm1aka
l2m1a4m
l3mana
lm1apf
lm1art
lm1att
lm1äst
lmbu2
lm1c
lmd2
lm3e2dit
l2m1ef
l2m1ent
l2m1e2p
lmer2
l2m1erf
l2m1erl
l2m1erz
l4messa
l2m1i2d
lm1ind
lm1ins
l2mof
lm1orc
lm3p2
lmpf4
lm3s2k
lms2t
lm3ste
lm3s2z
lm3t
lmt4r
l2mum
l4munt
2ln
ln2ab
lna2r
ln3are
lnd2
l3n2e
lnes2s
l2n1in
lnus2
l1nü
l1ny
1lo
3lob.
l2oba
3lobb
lobe2s
2lobj
l1o2bl
l2obr
lob4ri
lo2chel
lodi4e
l1ofe
lo3fj
lo4gh
lo2gl
lo2gor
lo2gre
lo2ha
loh2e
loh2ner
4l1ohr
loi4d
loi4r
3lok
4l1okk
lo2k3r
".
Definition de_33 : text := "l4olä
l4ole
2l3o2ly
lomä3
lo4mel
lo4min
lo2ner
lo4nin
lo2n1o
lo2o3
2lopf
lop2p1a
2lopt
lo2rak
lor3am
lor2an
lo4rä
3lorb
2l1orc
2l1ord
lo3r2en
2l1org2
lori4di
2lort2
l2os.
lo4sa
3lose
lo4ske
los3p
lo2spe
lo2spr
los3sa
lo4ste
lo2s3t4r
2loß
lo2ta
lo2th
lo3tha
loti4o
lo5tos
lots2e
2l1ov
lo2ve
2lox
1lö
lö2b3
2löck
2löd
2l3ö4fe
2l1öhr
2lök
2l1öl3
2löp
3lösc
3lösu
lö4ta
2lp
lp2ar
lpar2k1
l2p1är
l3p2f
lp4fu
l3phä
l2phir
lp1ho
l3phr
lph4t
lpi4p
lp4lu
lp4rä
lpt4r
l3pu
l3pü
2lq
2l1r2
lrau2s
l3re
lrebs2
lro2h
lrö2
l3ru
l3rü
2l1s
ls3a2b
lsa2ck
ls3acke
l2s1a2d
l4s1amb
l4samp
ls2amt
l2san
ls3ane
l3sare
ls3a2ri
l3sark
l4s3au.
lsau4m
lsau4rer
ls3aus
l2saut
l3s2äm
ls2äug
l2s1äus
lsby4
ls2c
l2schin
lschs4
l2s1e2b
l3seil
ls2ele
ls1eli
ls1emb
l2sent
ls1er
ls2erb
l2serf
l2serg
l2serh
l2serk
l2serl
l2sers
lser2u
l2serw
lse2t
ls1eta
ls2ext
ls3ha
l2s1id
l2simp
ls2kal
l3s2kele
ls2ky
lso4b
l2sop
l2s3ort.
l3s2öl
ls2pa
l2s3pac
l2s3ph
l2s3pir
l3spit
l2spiz
ls2po
ls2pu
l3s4pul
ls3s2
lss4t
l4st.
lst2a
lstab4
ls3tabl
lstahl3
l2stas
l2stat.
l2state
l2s3täti
l2ste
l3stea
l3stec
l3steh
l3stei
l4steil
l3stel
l3stemp
l4sten
l6ster.
ls2t3erk
ls4terne
ls4terns
ls2tie
ls4tip
l2stit
l2stoch
ls4toi
lstro4
ls4tru
l2s3trü
ls2tu
ls4tüm
ls1um
l2s1un
ls2und
ls3unk
l4szu
2lt
l2tab
l3tabl
lt1abs
lt2a3d
ltag4
lt1am
l4tame
ltampe4
l3tan.
ltan3d
l2t1ap
lt1ara
l3tark
lt1art
l3tarta
ltar4tik
lt1au
lt3aut
lt1äh
lte2c
lt1eh
l3tehu
lt1eig
lt1ein
lte3mi
lt2en
lten4gel
lten2sp
lt3ents
lte2ral
l2t3er2fa
l3t2erg
l2terhe
lter2ku
lter2nä
lte2ro
lt2erö
lter2se
l4t1es3k
lt2est
lte3str
lt2et
lt3g
l2t1h
lt3hag
l3thas
l4t3hei
lthol2
l3thr
l3t2hu
lt1ide
ltimo4
l3tine
l2tiso
l3t2i3t
l2t1ob
l2t1o4f
l4tord
l4torg
l4t1o2ri
lto2w
lt1öl
lt1ös
l4t1öt
ltra3l2
lt3räu
lt3rec
lt3rei
lt3ris
lt3rol
l2t3rö
lt3rum
l2t3rus
lt2se2l
lt2s3ort
lt3s2ph
lt2sti
lt2stüt
lt3t
l3tub
lt1uh
l2t1um
lturan2
lturen2
ltu4r3ent
ltu2ri
l3tü
lu1an
2lu2b3
luba2
lubs2
lu2dr
lu2ec
lu2es
lu2et
1luf2
2l1u4fe
lu5fel
2luff
luft1a
luft3e
luf4tei
luft3r
lu2g1a
lu2g1e2b
lu2gei
lugen1
lu2gi
lug3l
lu2go
lu2g3r
lug3se
lug3sp
lu2gu
2l1uh
lu1id
lui2de
lu4ig
lu1is.
2lumd
lume4
2lumf
2lumg
2l1umh
2lumk
2luml
l2ump
1lumpe
lum2ph
2lumr
2l1ums
lu3mu
2l1umw
2lumz
1lu2n
2l1una
lund4
2l1unf
lung4sc
2l1uni
2lunr
2l1uns
2lunt
2lunw
lu4pf
l2ura
lu2r1an
lu2rat
3lurc
lu2rei
2lurg
l2uri
lu2ris
l1urn
lu2ro
2lurs
l1urt
lu3sak
2luse
lu3si
lu2sp
lus4s3a
lus2s1c
lus2sel
lus2s3er4
lus2s1o
lus4s3p
lus2s3t
lus4stä
luss5tr
1lu2st
lus4terl
lus4t1o2
lust3re
lu4s1u
lu2t1a4
lu4tas
lu4t3au
lu2tä
lu2t1e4g
lu2t1el
luter2
lu2t3er4b
lu2t3erg
lu4t3ersa
lu2thy
2luto
lu2tob
lu2t1o4f
lu2top
lu4t1or
lu4t3r
lut3schl
lu4tü
3lux
2lüb
3lübd
lück4e2
lücker3
lüf3te
lü2hel
lüh1l
lü2s
2lv2
lva3
l3vl
lv3r
2lw2
l3wa
lw4ei
l3wi
2lx
1ly
ly1a
lya4m
".
Definition de_34 : text := "ly3c
ly3es
ly1l
2lymp
3lyn
ly3no
ly1o
ly3onn
ly3th
2lz
l2z1ac
l2z1ag
l2zan
l2z1ap
l2zat
lz1aus
l2z1äp
l2zär
l2z1eim
lze2l
l2zele
l2z3enth
l2z1ep
l2z1er2h
l2zerz
l2z1id
lzi4m
lz1imi
lz1ing
lz1inn
lz3l
lzo4f
l2zö
lz3t2
l2z1u4fe
lzvol2
lz3w
l2zwar
lz4wec
l2zwu
1m
maa2
m1ab
m3a2bar
m2abä
2m3abb
m2abe
4m3abf
4mabg
2mabh
4mabk
2mabl
m2abli
2mabm
4mabn
ma2br
m2a3b4ra
4mabs
2mabt
4mabw
2mabz
ma3chan
mach2e
mach4t5ers
mach2tr
ma2ci
mack2s
2m1act
mada4m
m2adä
ma2del
ma3dj
ma4dl
2m1adm
2m1a2d4r
ma4d2s
mae2
ma3f
maf4r
mag2a
ma2ge.
ma4geb
ma2geg
ma2gek
ma2gep
ma2ges.
ma2get
ma2gev
ma2gew
4m1agg
magi3er.
magi3ers
ma3gl
ma3g4n
2m1ago
ma3ha
mahl4st
ma1ho
mai4s3e
ma4ke.
ma4kes
2m1akt
mal1ak
ma2lakt
ma2l1an
ma2lau
ma2lär
2mal2de
m2aldi
ma3le
ma4leb
ma4lent
mal2er
ma4lex
mali2e
mali3er
mal3lo
2mallt
ma2lon
ma2lop
m2alp
mals4terb
mal3t
malu4
ma2l3ut
3malv
ma4mid
mam3m
4m1a2nal
ma2nar
2m1a4n4at
ma2nau
2m1anä
2manb
man2ce
3man3d4
man2en
ma2net
2m2anf
mang2
2man3ga
m2angel
2m1angr
2m2anh
3manip
2manl
4manla
m2anle
3m2a4nn
4manod
2manr
2m1ansa
2mansä
man2t1h
2mantr
ma4n1ut
2manw
2manz
m1anza
ma2or
ma2phr
ma2po
m2ara
4marag
4marb
2maren
mar3g2
3ma1rh
ma3r2i
m2ark
mar2kr
4mar2o
maro3d
4marr
mar4schm
mar4schn
mar4schr
mar2sp
mar2su
2mart.
ma3r2u
m1arz
3mas
ma3s4a
ma3s2e
ma3s2p
masse4n3
mas4ta
mas4tel
mas2ti
mas4to
mas4tr
mas6tri
ma4s3z
3maß
ma2tab
ma2tan
ma2tä
m3a2tel
ma2t3erd
ma2t3erz
ma3the
m4atme
2matmo
ma2to
ma4tort
mat3se
mat3sp
matt4r
matur2a
mat3url
2m1au4f
3maul
ma3un
mau3r
2maus
m1auss
mau2ta
m2ay
ma1yo
2m1ähn
mäh1r
4m1änd
2m1äp
2mäq
mär1
2m1ära
mär2kl
mär2z1
mä3t4r
mäu2s1c
2mb2
mbe2e
mbera2
mber2e
mbe3ri
mbert4
mbi3er.
mb4le
mble1i
mb4re
mbu3sc
mby4t
2mc
m3ch
2md
m2dan
m2d1a4s
md1är
mde2a
m2dei
mde2m
m2d1emi
m2d1ent
mder2
m2d1erl
mdien4
md2ö
md3ras
md3s2e
mdt4r
m2d1um
me3an
me3at
me2ben
4mebo
me1c
medi3
medie4
me1e2m
me1e2n
mee4rei
2m1eff
mega3
me4gel
3meh
meh6l3er
2m1eif
2m1eig
m2e4i3l2
mein4da
meinde3
meiner4k
mei4nerl
5m2eist
me3lam
me3l2ant
me2l1au
melb2
mel3d2
melde3i
me2lek
2melem
me2ler
melet4
2melf.
mel3ink
3melk
mel2k3ei
mell2
3melo
me2lob
mel4sac
mel2se
mel2spa
melt4
4mel4tern
2m1e2mis
2m1emp
2m1e2mu
m2en.
men3ab
me3nage
me4n3an
men3ar
me4nas
men3au
4m1endl
menen1
meng2a
2men2gag
men3ge
me4nh
me2nid
me2nim
me4n3k4
men2on
me4ns
men2se.
men2sem
4mensemb
men2sen
men4ser
men4ses
mensi2d
menst4
3m4enta
men2t3ak
men4tanz
mentar6ten
3m4entei
ment3eig
men4t3ers
4mentn
ment4sp
menü1
me1o
2meou
2meö
4mepa
2m1e2pi
m4er.
me1ra
mera3l
mer2a3s4
me2r1e2b
2mer2eig
me2rens
mer2err
mer2erw
2m3er2gän
meri2e
merin2d
merin2t
2mer2klä
3merkm
mern3s4
m4ersh
mer3sm
mer4stel
mert4r
merz4eng
3mes
me2sal
me4sä
4meser
mes3pr
2mes4sa
mess3an
messe2r
mes4s1o
mes2sp
mes2st
mes3ta
me1sto
mest3ri
me3su
me3sze
me3ta
met3abe
meta1s4
mete2
me3th
me2to
me2tö
me3tr
me4trig
met4t3en4d
me3tu
meu1
".
Definition de_35 : text := "2m1ex
me2xe
2mf
mfi2le
mf4rü
2mg2
mgang4
mglim2
2m1h2
m3hu
mi1a
mia2b
mi3ak
mia4m
2mian
2m1iat
mibi1
mic1e
mi1ch
mi2ci
mi3da
mi2di.
mi3dr
2midy
mie3dr
mi3ele
mi4e3no
mien3s
mierer2
mie1s
mie2ti
mie4to
mie2t3r
mi3f4l
3mige
mig4r
mi3h
mik1an
mi3ke
mi4kel
mi4kens
mi3k4l
3mil
mi3l2a
milch1
mil4che
mild4s
mi3l2i
mi3l2u
4milz
m2im2a
2m1imm
4mimp
min2ac
mi3nak
min3anze
m2in3de
minde4s
4m1indu
mi2nef
miner1
mi4n3e2ri
min2eu
4minfo
min2ga
ming3s
2minh
3mi3ni
mini3k4
mi3nod
mi2nof
2m1inse
m1inst
mi3nu
3minz
mioni1
mi3p
mi4ps
3mir.
3miri
3mirs
3mirw
3mirz
3mis.
mi2sa
mis4au2
mi3schu
misch3w
mi3se1
2m1i2so
mis2p
mi2spe
mis5sar
mis2ser
mis4st
mis3te
mi1sto
mi1s4tr
3misu
3mit
mi2ta
mit1h
mi5thr
mi5tic
mi5tig
mi2to
mi5toc
mi2tr
mit3s4
mit5sa
mit3tan
mit3t2e
mitte3s
mi2t1u
4mitz
mi3v2
2mj
2mk2
m3kn
mk4na
mk4ne
mk4nu
2m1l2
ml3c
m3le
ml3f
ml3k
m3lo
ml3p
ml3s2
2mm
mma3a
m2m1ak
mma4kr
mm1all
m2mank
m2m1ans
mm1anz
m2m1ap
mm1art
mma1st
mm1aus
m2m1äu
mmd2
m2m1e2b
m2m1e2di
m2m1ef
mm1ein
mme2l1a2
mme2lin
mm2ene
mmen4te.
mmen4ten
m2ments
m2mentw
mme2r3a2
mme2rec
mmer4geb
mme2s
mme3sc
mme4sz
m2m1eu
mmi3el
mm1inb
mm1inh
m2m1ins
mm1int
mm2is
mmi3sc
mmisch4
mmi1s4t
mmi3tw
mm3m2
mm3p
mmpf4
mm2s
mm3sa
mm3se
mm3s2i
mm3so
mm3sp
mm3sta
mm3sti
mm3te
m2mum
mm2un
mmu3r
mmuts2
mmül2
mmüll1
2m1n2
m2nesi2
m3ni
m3nu
2m1o2be
3mobi
2mobj
3m2od
mo3de
mode1s
mo2dr
m1of
mo4fe
mo2g1al
3m2oh
moh2a
moi3r
mo2k1l
mol3d
3mom
mom4e
3m2on
mo2nan
mo2nä
mon2dac
mon2del
mon2d3er
mon2do
mond3r
mo2ner
moni2en
mon2s3
mon3sa
mon3s4e
mon3s4u
mont2a
mon3th
mo1ny
3m2o2o
2mope
2m1opf
2mopt
mo1ra
mo2rak
mor2an
mor2d3a
mor4derm
mor2dr
mor3g
morgen3s4
mor3t2
mor5to
mo4ru
3mos
mo4ska
mos3s
moster4
mos2ti
mo2su
mo3t2h
2motio
mo5tor
mot4r
motte3s
mous2
m1ox
moy3
möbe2
mö2c
2möf
mö4fe
3mög
2m1öl
2mp
mpa3ne
mpe2la
mpe2lin
mpe2n
m2p1ene
m4pf.
mpf3au
mpf1ef
mp2f3erf
mpf3erg
mpf3er2p
mp4ferpr
mp2f3er4r
mp2f3erz
mp4f3l
mpf1or
m4ph.
mp1haf
m4phb
m4phf
m4phg
m4phm
mp1hos
m4phs
m4phz
mpin2
mp3lei
m2p3lem.
m2p3len
m2p3les
mp4lis
mpor4tag
mpor4ter4
m2p3ra
mp4rä
mp3sh
mps2p
mp3str
m3pu
2mq
2m1r2
m3ra
m3ru
2m1s
m2sam
m2san
m4sap
ms1as
m3sat
m2sau
m3sä
m4s1än
m3sc
msch2l
m4sco
m3se.
m2s1e2d
m2s1ef
m2sein
m2se2le
mse2n
m2s1ene
m2sent
ms1erf
mse2t
ms1eti
m2s1eu
m2sex
mso2
m2s1od
ms1orc
ms1ori
ms2p
m2spä
m2sped
m4spl
m2spot
m2spro
ms3s2
mss4a
mst2
m4st.
m3stä
m3steh
m3stei
m3stel
ms2ti
m2stit
m3sto
m3s4tr
ms5trä
ms6trän
m3s2tu
ms4tü
m2sü
m3sy
m4szi
2mt
mt1ab
mt1ak
mta4m
mt1ar
mt3aug
m2t1e2d
m2teig
mt1ein
m2t1eis
m2teiw
mt1elt
m3tem.
mt1emi
m4tenga
m4t3engl
m4tentf
m4tentg
m4t3en2tr
m4tents
mter2
m2t1er4b
m2t1erf
m2t1erg
mt1erh
m2t3e2r4i
m2t1erk
m2t1erl
m2t1ers
m2t1ert
m4teta
m2t1eu
m2t1ev
m2t1h
mt3ho
m2t1i2d
m2tim
m2t1in
m2t1i2r
".
Definition de_36 : text := "mti2s
mtmen2
mt1ob
mt1op
m2t1öl
mt1ös
m2t3ro
m2trö
mt2sa
mt3sco
mt2s1e
mt3send
mt3s2ka
mt3s2kel
mts3tät
mt3stu
mtt4r
mt1um
mtu3re
m3tü
mt3z
mu1a
mu2ckel
2m1uh
mu3la
3muld
mul2lau
3mult
3mumi
m1ums
mum2s3p
3mun
mundan4
mun4derf
mu2ner2
4m1unf
4m3ungeb
mu3ni
mu4nin
4mu4niv
4munw
4munz
mu3ru
mu4r1u4f
3mus
mu4s1a
mu2s1o
mu2sp
mu2s3t2
4must.
must4e
mu2su
muße1
mut1au
mut2st
2müb
3müh
mü2her
mühl1a
3mül
mül2len
3mün
3müt
mütter3
2mv
mvoll1
2mw2
mwa2
mweg4
mwel4
mwelt3
mwelter3
mwu1
my1a
my1on
my2s3
2mz2
mzug4
1na
3na.
na2a
2n1ab
3naba
na2bä
naben3s2
n3abh
n3abk
na2b3l
na2bor
na2br
nab4rü
4n3abs2
na2bus
4nabz
3nac
n4ac.
na2ch1
nachen6
na3chen.
n3achse
nacht5ers
nach6tersc
nacht6raum
n1ada
na3dab
3nade
na3de.
nadel1
na3den
4n1adl
4n3adm
n1a2dr
3nae
na3el
2n1af
na3fra
nag2a
na3ge.
na2gem
4n1agg
n1a2gi
na3gin
na3g4r
3n2ah
nah1a
na2hau
n4ahm
4n3ahn
4n3aho
na2hö
3nai
na1i2d
nai2e
n1aig
4n3air
nai4re
n2ais
2n1ak
3n4akä
3nako
na4kro
4nakt
na4kus
n2al.
na2l1a2
nal3am
na4lar
na2lä
2n1albk
n2ald
nal3da
na2l1ed
nal3ei
na2l3ent
na2ler2g
na2lerm
na2l3erw
nales2
nal1et
nal1ex
nalg2
na2lid
na2lop
nal2ph
n2als.
nal3t
nalt2a
nal5t4r
n2alty
na2lu
2naly
na4mal
na4mat
3name
4na4mei
n4amen
namens3
4n1a4mer
na4mid
na4min
na3m2n
3n2amo
n1amp
nam4sp
2n1amt
namt2s
na4my
n1an
4na2n4a
na4nat
n3a2nä
4n3anb
n3and2
nan1eu
4n3anf
4n3ang
4nanh
2nani
4n3ank
4n3anl
3n2ann
4n3anna
4nano
nan2o3b
4n3anp
2nanr
4n3ans
2nantr
2nanw
n2anz.
nanzen2
nan4zeng
nanzer2
nan4zerg
nan2zw
na3ot
na2per
n1apfe
2napfel
na2pos
n3a2pr
n1a2q
n1ar
3nar.
na2r1a
2narc
n2ard
n2are
n4are.
3nari
n2ark
n2arle
2narm
n2aro
na2rom
na3rö
n2arr
nar2rh
n2ars
2nart
n2arta
n2arth
na3r2u
3nas
n4as.
na3sä
na2schw
4n1a4sp
nas2s1c
4n1assi
nas4ta
4na2sy
nasyl2
3nat
n4at.
n4ata
na2tat
na4t3au
nat1ei
na2tem
na2t2h
4natm
nat2o
4natom
nat1r
nat4sa
nats1e
na4tt
n4a3tu
n1au
nauf2fr
4nauge.
3n2aul
3naum
na3um.
4nausb
4nausd
4nausf
4nausg
4nausl
n2auso
4nausr
4n3auss
4nausw
4nausz
nau5te
3nav
nave4
navi3er.
navi3ers
na2x
1nä
2näb
3n2äc
3näe
2n1äf
3näg
nä2hi
3nähm
2n1ähn
nä2hu
3näi
2n1äm
nä4mi
2n1än
2näpfel
2näq
när4s5t
nä2sc
n2äss
nä4st
2näu
3nä1um
2nb2
n3ba
n3be
nbe2in
nber2e
nber2gr
nbes4
nb4la
nb4le
nb4ri
nbruch4s5t
n3bs
nby4t
2n1c
n2c3ab
n3can
n3ce4n
n3ces.
n4ch.
nchi3en
n3chl
n4ch3m
n2ck
ncor2
n3cr
n3cu
2nd
nda3f
nd2ag
n3d2ai
n2d1ak
n2dana
n2dani
n2danz
n3dat
nd3att
nd1au
n2daut
n2dax
nd1äng
nd1c
nde2al.
n3de1e
n2dei
nde3inf
nde2lat
nde3l2ec
nd3elfe
ndel3l
ndel4s3a
ndel4s3en
ndel3ste
nden3sk
n2dentl
n2dents
nde3o2
n3der.
nde4rei4s
n3deren
nd2erh
n3deri
nder4läs
nde2rob
n2de2ros
nder4sat
nder3ste
nd2es1
nde2se
ndes3s
ndi2a3
nd1imm
ndo1c
n2dof
ndo2n3a
n2dopt
nd1or
n2do2ri
ndo1st
n2d3ott
n2dout
n2dö
nd2ös
n2d3rat
nd3rau
n2d3re
n2drif
n2d3roc
".
Definition de_37 : text := "n2drod
n2d3rö
n2drui
n2d3run
n4dsb
nd2sene
nd4sf
nd4sg
n4dsl
nd4sm
nd2spr
nd3th
ndt4r
n2duns
ndy3
ndys2
1ne
3ne.
ne2ap
3ne3as
ne3at
ne3au
2n3ebene
ne2bl
2n1ebn
neb4r
2nec
3neca
3nece
ne2ch
ne1ck
neck2a
ne2dit
2nee
neei4
ne3ein
ne3eis
neen2
ne1en.
nee1r
neer4e
n1ef
n2ef.
n2e3f2a
2nefr
2n1egg
neg4l
n1e2go
neg4r
n1e2he
2nehe.
2nehem
nehen2
ne3he2r
3nehm
2n1ehr
2n1ei
3neia
4neic
nei4dr
4neier
3neigt
3neigu
nei4la
4neing
4neinh
4neink
4neinl
4neinr
4neinz
neiss4
ne2ke
2n1eks
nek3t2
2nekz
ne2l
ne3lä
nel3b
n1ele
ne3leb
2nelek
2nelem
ne3len
ne3l2i
ne4lim
ne4lit
3nelk
n2ell
nel2l1a
nel2lei
neller4f
n2eln
3ne3l2o
3ne3lu
3n2em.
2n1emb
ne5men
n2emo
4n3emp
2n1ems
3nen
n4en.
n2en3a
nen4am
ne2nä
n2enb
n2enc
4n1endb
4n1endd
4n1endf
n1endg
4n1endh
4n1endk
n1endl
4n1endp
4n1endt
4n1endw
nene2b
nen3ei
nene4m
nenen1
ne4nene
nen3erb
2nenerg
ne2n1eu
n2enf
4n1engb
nen2gen
nen4gen.
4n1engs
4n1engt
n1engu
nen2gun
n2enh
ne2ni
n2enj
n2enk2
n2enm
n2enn
nen2nar
ne2no4
nen3s2e
2nensem
nen3sk
nen3s2p
5n2en3t2a
4n1entb
4nentd
4nentf
5n2enti
2n1entl
4nentn
5n2entra
nen2tri
4n1ents
4nentw
4n3entz
ne4n3u
n2env
n2enw
nenz2er
neo3b2
ne2oh
ne2or
neos4
ne2pen
2nepf
2ne4pi
2nepo
ne2pos
nept4
n4er.
ne1ra
ne2ra2b
ne2rac
ne2r3af
ne2rag
ne3r4al
ne2ram
ne2ran
ne2r3ap
n2erat
ne2rati
ne3rato
ne2rau
n2erb2a
2n3erbe.
2n3erben
2nerdb
ner2dig
nere2
ne2r1eb
ne2rec
n1erf
2nerfas
nerfor2
3nerfr
2nerfü
2ner3g4
n3ergeb
4nergi
3nergr
n1erh
n3erhö
4nerhöh
3neri
neri2e
n2erj
n1erk
3nerka
n2erkö
n4erleh
n2erli
2n1erlö
n1ermi
2nermit
2n1ernä
4n3erneu
2n1ernt
n1eros
n1eröf
ne1rös
3n2ers.
n1ersa
3nerse
ner4sk
2n3ersts
nert4
3nert.
ne2rup
3n2erv
2nerwar
2n1erz
n2es.
ne2sal
nes2an
ne2sei
n1e2sel
ne2s1ev
2ne3sh
ne3ska
ne2s1of
ne2s1or
ne2s3pa
2n1es4si
ne1sta
ne2ste
nes3ti
2n1est3r
ne1stu
4nesyn
ne2tab
2ne4tag
net1ak
ne2t1an
2ne2tap
2ne2tat
ne2te2l
ne2th
net3ha
ne3ti
ne4tim
ne4tin
ne2tob
n2ett
net3ta
net3te
net3t4r
2n1e2tu
net2zer
net2z1i
ne2u
neu1c
neu2ere
neuer2f
neuer2k
neuer4s
neuer2w
neuf4
neu3g4
n2eun
2n1eup
neur2
neu2ra
neu3t
3n2evi
n2ew
2n1ex
ne2xi
3nez
1né
2nf
nf2al
nfalt4
nf2ang
nf4ar
n3f2ä
nfe2i
n3f2en
n3f2er
nf2es
n4fex
n3f2i
nfi2le.
nf4le
nf4lö
nf5löf
nf2o
nfo1s
n4föl
nf4re
nfres3
nf4ri
nf4ru
nf4rü
nf3s2
nf2tan
nf5ten
nf2t3r
nft4st
nfts3tr
nf3tu
n2f1u
2ng
n3gabe
ng1abt
n2g1a2c
n2g1ad
n2g1ak
ng1a4me
ng1ams
ng3anda
ng3angl
n2ganh
n4ganl
ng1ans
ng1ant
ng1are
n3g2ars
n2g1a2v
n2g1äl
ng3d
n2g1eif
n2g1ein
ngelb4
nge3l2ei
ngel3t4
n3gene
nge3nerw
ngen3sa
nge2ram
n2g1erg
nger2zä
nger3ze
n3ges
nge3sa
ng5füh
ng5get
ngg3s
ng3hu
n2g1id
ng5käf
ng2lad
n3glas
ng2läs
n2glic
ng4lok
n3glot
n2gn
ng3ne
n4g3ni
ng4nom
ng2nu
ng2ob
n2g1op
n2g1o2r
n2gö
n2grai
ng4ran
n2g3rat
ng3roc
ng3rost
ng4s3au
ng4scr
ng4sd
ngs3e4h
ng4sek
ng4sf
ng3span
ng4spar
ngs5tan
ngs4teu
ng3ts
n2gum
ngung4
ngzei4t
2n1h2
n3ha.
nhabe4r3e
n5haltu
".
Definition de_38 : text := "n3he
nhe2r
n3ho
1ni
3n2ia
ni3alo
ni2ar
nibb4
ni1ce
n1id
3n2id.
ni3da
ni2de
n2i3de.
2nidea
ni3den.
ni3d4r
2n3idy
n2ie
nie3b
3nied
ni2e1i
ni1el
nie3l2a
nie4n3
ni3ene
nie2rei
nie4rerg
ni2erna
nie2sa
ni2eu
nife4s3
ni3fl
niga4
ni2g1ab
ni2g1am
ni2g1an
4n3i2gel
2niget
n4igk
ni4gl
nig3li
ni2gn
nigs3c
nig4sp
nihi3
ni2kar
4nikei
4ni2kel
ni3k2erh
4nikh
ni2ki
nik3ing
ni2kor
ni2k3r
ni4ks
nik3t4
4nikun
3n2il
ni3l2a
ni3l2i
nil3l
4nimp
nin1
3nin.
3n2ina
nin2ac
ni2nal
3n2inb
2n1ind
2ninf
3ning
n2ing.
n2ingo
ning4s
2n1inh
4n1ink2
3nino
ni2nor
3n2inp
2n1ins
4ninse
4ninsu
4n1int
ni3nu
4n1inv
3n2inw
ni2ob
ni3ok
ni3ora
n2ip
ni4ron
n1irr
3n2is
ni4sam
ni2san
ni2sä
nis3cha
ni2schw
ni2s1e
ni3se.
4n3isol
ni2som
4nisot
ni2sp
ni3spi
nis3s4
nis3tha
ni2s1u
2nit
3nita
ni3th
ni2ti
4ni4tia
nit2o
3nit4r
nit3s
nit4ter4g
nit4t3er4k
nit2t3r
nitt4sa
ni3v2
3nix
2nj
2nk
nk1abr
n2k1ac
nk1a2ge
n3kal
n4kalg
nk1ang
nk1apf
nk3art.
n2katm
n2kato
nk1aus
n2kaut
n2k1äh
n2k1äp
nke2c
nk1ei
nk2eil
nke2lei
n2kelem
nkel5ster
n3ken.
nke4na
nken4te
nker4fah
nker3la
n2k3erle
nke2ros
nk3ersa
n2k3erwe
n3kesc
nke2t
nk1eti
nk1i2d
n2kide
nk1inh
n2k1ins
n2klade
n2k1laf
nk3leis
n2k3len
nk3les
nk2lo
nk4neb
n2knis
n2knit
n2knu
n2k1o4be
n2kopt
nko2r
nkord2
nk1ori
n2k1ort
n2köl
nk4rab
nk3rät
n4k5re.
nk3rel
n2kren
nk3rep
n2krez
nk3ro
n2krol
nk2sal
nk2se
nk3sen
nk2so
nks2p
nks2ti
nk3s2z
nk2tak
nk2tan
nk4tau
nk3tek
nk4tent
nk2terg
nk2t3ern
nkte3sk
nkt2et
nk2tin
nkt1it
nk2top
nkt1r
nkt3ric
nk2tro
nk2tru
nkt2sen
n2k1um
nku2n
nk1urh
n2küb
2n1l2
n3la
n3le
nle2ga
nleit6e
n3li
2nm2
n3ma
n3mä
nmen2s
2n1n
n2nada
nna2g
n2nalg
n4n1all
n2n1amb
n4nan
nn1a2sc
n2nau
n3nec
n3n2eh
nn2ei.
n3nelb
nne4le
nne4na
nn2ens
n4nentl
n4nereig
nner2fü
nner4geb
nn4ergr
nn2erh
nn2erk
n2n3er2la
nner4mit
nn2ero
nne2rö
nn3erwa
nner2z
nne2s1e
nn2eu
nn2ex
nn3f
nng4r
n3ni
n4nid
nnk2
nn2o3b
nn3obl
nn3obs
n2nof
n2nop
nno2r
nn1ori
nn4sam
nn3s2p
nnst2
nn2stoc
nn2stö
nnst4r
nnt2a
nn5tag
nn2th
n2n1uf
n2n1unf
nn1ur
nnvoll4
nnvol3le
1no
3no.
no3at
3n2oba
n2obel
2nobj
no2bla
n2oble
3noblo
3noblö
2n1o4b2s
3noby
no1c
noche4
noch4r
2nod
no2de
nodi3
no2ed
n1of
no4fe
no5fes
2noff
n1oh
n2ohe
no3id
no2kel
2n1okk
no3kr
nola4
no2lam
n3ole
no4lig
no2liv
2n3o2ly
3nome3
3nomp
non2e
n1onk
nons4
n1ont
2nony
no2o
3n2opa
3nopä
no2pe
2no2pi
2n1ops
no3p2te
3nor.
nor2a
no2rad
n2o1rak
no3ral
no3rar
2norc
nor4da
3nordb
nor2des
nor2d3r
nor2du
no3r2e
2n1org
3norh
3n2orl
3norm
norm2a
nor3mal
3norö
3nors
2n1ort
3n2os.
nos2e1
no3sh
nos2k
no5ski
no2s3p
2no2sti
nost1r
2nostv
nos2u
no2tan
no3tart
no2tä
no4t1e2i
no4t3entr
no4ter4
noterb3
no4tex
not1h
no2tho
n4oti
no2tin
no4tl
no2t3op
no2t3r
3nov
2n1o2x
3noz
2nöd
2nöf
nö4fe
2n1ök
2n1öl
n2ör
1n2öt
2np2
n3pa
npa2ge
npa2s
n3pf
np4fu
n3pl
np4lä
np4lu
n3pr
npro1
".
Definition de_39 : text := "n3ps
npsy3
n3pü
2nq
2n1r2
n3ra
nra3di
nran2d
nräu3s
n3re
nrebe2
nre3s4z
nro2h
nrö2s
n3ru
nrücker4
2n1s
nsa2b
n3sabo
n2s1a2d
n2s1a2gi
n3saka
nsa4kr
n2sall
ns4alp
n2salt
ns2anat
ns3ane
n2sanm
nsa2r
ns2arg
n3sark
nsa2st
ns4ath
nsau4e
nsau4r
nsau2s
n2saut
ns2av
ns2ax
n2s1än
ns2äug
n2s1äus
n4schemi
nscher5g
n4schl.
nsch2o
nscht4
n3schu
nsch5werd
ns2cr
ns1eb
n3sed
ns2eh
nse2ha2
nseh3ere
n2seinf
ns2ele
nse2l3en
n2sem.
n2sene
nsen2sp
n2sepo
ns4eq
nse2rei
nser4en
n2s1erf
n2s1erg
n2s1erh
n2s1erk
ns2erko
ns1erl
n2serle
n2s3erne
n2serö
ns1ers
ns3ertr
nser2u
n2s1erw
n2serz
n2sety
n2s1eu
ns2ext
nsfi2l
ns4ic
ns3iden
ns4ie
ns4ig
n3sim
n4simp
n2sini
nsinn2
nsinns3
n3sis
n4siso
nsi4te
nsi2tr
n3skal
n3s2kel
ns2kis
n3skle
n4skü
n3s2ky
n3smara
ns3ob
n2s1o2d
ns1of
n4soff
ns4om
n4s3ont
n2s1op
n2s3ort.
ns2pac
nspa2g
n4sparti
ns2pas
ns4pel
n2speri
n2s3ph
n3spi
ns4pir
n2spo
n2sprä
n2s3prie
n2spro
n2sput
nsrü2
ns3s2
nss4t
n4st.
ns3tabl
n3stad
ns4tagent
nst1ak
n2stale
ns4ta2n1
n3stand
nst3ane
n3star
n2stas
n2stat.
n4staten
ns4tati
n2stats
n3stäm
ns3täti
nst3eife
nst5einhe
ns2temp
ns4tent
ns2tep
nst3erge
n3s4terne
n3s4terns
ns4teu
ns2ti
n3s4tic
n3stif
n2stilg
n3stim
n2stob
nst3opfe
ns4tor
n2strie
n2strik
ns4trip
ns4trun
ns2tu
nst3u4t
ns4tüm
nsuli2
ns2um
ns1un
ns2ung
ns4unk
ns2unw
ns4unz
n2s1ut
n3sy
ns4ys
n4sza
ns4zene
n4szo
n4szu
n4szü
n4szw
2nt
n3t2a3c
ntags4t
ntak2ta
ntal3ar
nta2lin
n4t1all
nta2lo
nt2alp
n3tam
n3t2anb
nta3ne
nt1ant
n2tanza
ntar3ak
nt2arb
ntar2c
nt1ark
nt2arm
nt1art
n4tarti
ntar4tik
n4t3artu
ntasi2
n2t1ass
n2tath
n3tatl
nt1äm
n2t1äu
nte3au
nte1e
nte3g4
nt1eh
n3tehe
n2teig
nt1ein
n2t1eis
nte2lin
n2temä
n2t1e2mo
nt4en
nte4na
n4tenpä
nten4te.
ntera2
nte4r3eis
nter3g
nt4erh
nt4erk
nt4erm
nt4ern
ntern2e
nt4erp
nt4ert
nte3sa
n4t1es4s
nte2st
n4testri
n4te4ta
nteu3
nteu4eri
nte3v
nt1hel
nt1hie
nt1ho
nt2hos
n2thot
nt4hu
n2t5hum
nt2i
nti3c
nti2en
ntim3p
n2t3ind
nt3inf
nting2
nt3inh
ntini1
nt4i3t
n3t2lem
ntmen2
ntni2
ntnis1
nt4od
nt4om
nto3re
n4torg
n4t3o2rie
nt4ou
n4t1ox
n2t1öl
nt4ral
nt1rau
nt4raum
nt5re.
nt3rea
nt3rec
n5t4ree
nt3reif
n5trep
nt4repr
nt4ré
nt3rich
n4t3rieg
nt3ring
n2troh
n2tropi
n2t3rü
nts2ah
nts3k
nt3s2p
nt5spe
nts2t
nt2sur
ntt2
n3tub
ntu4re.
ntu1s
n3t2ü
nt3z
nt4zk
1nu
3nu1a
nu3a2r3
nubi1
2nu1c
3nud
nude2
3nue
nu2es
nu4fe
3nug
2n1uh
3nuhi
3nui
n2uk
nu3k4l
n3u2kr
null1a
nulle2
null3eb
n2um.
2n3umb
n2ume
2numf
4numg
2numl
3n2umm
4n3umma
4numr
2n1ums
2n1umv
2n3umz
nu2n
4nuna
2n1une
3n2ung4
4n3ungl
4n1uni
n3unk
2nunr
nun3s
4nunt
4nunv
3nunz
3nuo
2nup
2nu2r
nur2i
nur3s
nur2z
3nu2s
nu3sc
nu3se
nu3sk
nu3spo
nus2s3er2
nuss3p
3nut
nu2t1a
nuti2v
n3uto
nu2top
nu4t3r
3nuu
3nux
3nuz
3nü.
2nüb
nü4be
nür1c
3nüs
1nüt
2nv2
n3ver
n3vl
nvoran2
2nw
nweis3s
1ny.
2n1ya
n2ya.
1nyh
n1yo
1nyr
1nys
1nyw
2nz
n2zac
n2z1a2g
n2z3a4k
n2z3a4ne
n2zant
n2zar
".
Definition de_40 : text := "nz3a2ri
nza2s
n2zat
n2z1au
n2zän
n2zär
nze4la
nzel4lig
n3zeni
n2zense
n2zentl
n2zents
n2z1erh
nz1erl
nzer2lö
nz4err
nz3erste
nzer4tra
n3z4es
nze3sk
nze2t
nz1eta
nze3u4t
n2z1id
nzi2ga
n2zinh
n2z1ini
nz1int
nz1inv
nz3le
n2z1op
n2zöl
nz3st
nzt4r
nzu3p
n2z3wa
nz3wä
n2zwet
n2zwir
n2zwö
n2z3wu
1ñ
ño1
ñor2
2o1a2
oa3bi
o2ac
oa3che
oa3chi
o2ad
oa3de
oad4st
o3ah
oa3in
oa4k1l
oa4ku
o3al
o4a3la
oa4lg
oa4ls
oa4me
oa4mé
o2ami
oa4n4a
oa4nn
o2a3q
o2ar
oa4re
o2as
3o4a3se
o3ass
oa4tr
2o1ä
2ob.
o3b2al
ob2am
2ob2ar
2obau
ob1auf
2o3b2ä
2obb
ob2e
2obe.
2obea
2obec
2obef
o2b3ein
2oben
obe4na
oben3d4
1o2ber
2o3ber.
ober3eis
ober3in
obe4ris
2obev
2obez
2o3b2i
obi2e
3obj
ob1la
ob3lei
1ob3li
ob4lit
2oblo2
2ob2lö
ob2lu
o2boe
ob1or
2obot
2obö
ob3rei
2obrü
ob3s2h
ob3sk
obs4p
2o3bu
o4bunt
obu2s
2o3bü
o4büb
2o3by
oby4t
2oc
o3ca
oc1c
3occl
o1ce
och1a
ocha2b
ocha2r
o1che
oche2b
o2ch1e2c
och1eh
och1ei
oche2l
ocher2k
ochi4d
ochi3e
och3l
och3m
och1o
ochö4f
och3r
och1s
ochs4p
och3t4e
o1chu
ochu4f
och3u4t
och3w
o1ci
o1ck
o2ckar
o2ckau
o3cke
o4ck3er4sc
o3cki
oc4ko
o4cks
ock3sz
ock3ta
o1cl
o3cu
2od2a
od3ak
od2dr
o3dec
o3d2e3i
odein3
ode2l3ag
ode2man
ode2n1
ode2s1e
ode3sp
od2et
o3dex
od2i
2o3dia
2odic
2odif
2o3dir
2odn
o2don
o2d1op
odo4s
od2ö
2odr
odt4r
2o3du
o3dy
ody4m
2o1e
oe2b
oe2c
oe3de
oe2h
oe2l
oe2m
oe4mi
oen1e
oe4nz
oe2p
o2es
oe2sc
o2et2
o3et.
oe4ta
o3ets
oe2v
oe2x
o1ë
o2f
2o3fa
ofa2c
of1a2d
of1a2g
of2an
of1au
2o3fä
of1är
ofdie3
o3fe
o4f1e2b
o4f1ec
2ofee
o4f1ei
2ofem
o4fent
2ofer
o4ferb
o4f1err
2of2es
o4f1e2t
2ofeu
of2f1a
off3erz
of2f1in
1offiz
of2f3l
2offn
of2f1o
of2f3r
offs2
off3sh
off3si
off3sp
2o3f2i
ofi3e
ofie2i
ofi3k4l
ofi3s4
2o3fl
of3le
of3li
of4lö
2o3fo
2o3fö
2o3fr
of3rä
of4ru
of4rü
of2s1
of4sam
of3sä
ofs2ch
ofs3p
of3sta
of4staf
ofs3te
of3sti
of3str
2oft
oft2a
of2tei
of3th
oft4r
2o3fu
of3uh
of3ur
o3fü
2og
o2g1ab
o2g1ac
oga3d
og1ang
og1ans
o2g1e2i
oge2li
ogener2
ogen2id
ogerätein6
ogeri2
o2g1eth
og2gl
o3gh
ogi4e
o2g1ini
o2g3ins
og1l
og3le
og2lo
o3g2n
og4na
og4ne
og4ni
og1o2ri
ogs2
og3s4p
og1ste
og3sti
2o1ha
o3ha.
oh1alk
oh1ar
o1hä
o1he
o3he.
oh1eis
o3hem
o3hen.
ohen3s
o3her.
o3here
oh1er4t
oh1er2z
o3hes
2o1hi
2ohl
ohl1a
oh2la2d
oh2lä
oh3lec
ohl1ei
ohle3l
oh3lep
ohler2
oh4lerg
oh4l3erh
oh4lerw
oh3lo
ohl1o2r
ohls2e
oh2lu
1ohmi
ohn1a
oh4nac
oh3nee
oh2ni
1ohnm
oh2n1o
ohn3sk
2o1ho
oho2l1e
ohol1o
oh1o2p
2ohö
oh3öl
ohr3a
oh2rel
oh2rem
ohren3s
ohrer2
oh2rerg
oh3rers
oh3ri
oh4rin
oh4rol
1ohrr
ohr5t4r
oh1s
oh3sa
oh3t
o1hu
oh3w
2o1hy
2oi
o1i2d
o3ida
o1i2m
o1in
o4ine
oi2r
o3isch.
o2ische
o1ism
oiss2
o1i2t
oi4ta
oi3te
oi3th
oi3ti
oi4tu
2oj
ojek4tori
ok2a
oka3b2
o2k3ac
oka3i
".
Definition de_41 : text := "oka2la
okale2
okas4t
ok2e
oki4o
ok2la
ok3lau
ok1lä
ok2li
ok4na
ok2o
2okr
ok2so
ok2sp
ok3t2
ok5tor
3okw
2ol
o1la
ol3abu
olaf4
ol1ami
ol1ant
ol2ar
olar3s
o3l2as
olast4
o1lä
ol1ät
ol2chr
ol4d1am
ol2dä
ol2d1ed
ol2d3eng
old3ersa
olde2s
ol2deu
ol2dim
ol2d3o
ol2d1r
4o3le.
ole2e
o2l1ef
ol1eie
o2l1eis
ol1emb
oler2
ol1erk
ol1er3t
ole3s
ol1ess
ole2s2t
ole4sti
ole3u2
ol1exz
ol2fa
ol2fem
ol2ferl
ol2f3l
olf1r
ol2fra
olft4
olgege3
ol2gl
ol2gr
olie4n1
oli4er
oli3k4
o4l1ind
oli5tu
oli6tun
3oliv
ol3ke
ol2kl
ol2k3re
ol2kro
olks3
olk4sc
olk4si
ol2l1ac
ol2l1ad
ol2l1ak
oll3am
ol2lanh
ol2l1au
ol2l1e2b
ol4l1e2c
ol2l1ei
ol2lel
ol2lent
ol2l3erh
ol2ler2k
ol2l3er2l
ol2l3erw
ol2l3ess
ol4lk
ol2lop
oll3s2a
oll3sp
ol2of
oloni2e
olo3p
ol1ort
olo1st
olo3t
ol2ov
ol3s2k
ol4ster
ol3t2h
o1lu
ol2y1
4o3lys
ol2z1a2
olzer2
ol4z3ern
ol2zers
ol2zim
ol2zin
ol2zo
ol2zw
ol2zy
2o2m
o3ma
o4ma2bl
o4m1a2ge
om1alg
om1all
o5man.
oma2n3er
o4m1ang
omani2e
om2anr
om3ansc
o4m1ap
o4m1ar4s
o4m1art
omar4te
o4ma2sy
omat2i
o4matom
o4m1au
o3mä
o3me
o4meb
om1ebe
o4m1ef
om1ei
o4meis
o4mele
omen3t4an
o4mep
omer2
o5mer.
om1erh
o4meru
om1erz
o4mex
o3mi
omi2c3
omi2e
omiet1
om1ind
om1ing
o4m1inn
o4m1ins
o4m1int
o4miso
om2it
om3ma
omm2e
3omn
o3mo
o4m3oa
o4m1org
om1o2ri
o4mox
o3mö
ompani2
om3pf
oms2
om3sk
omt2
om3th
o3mu
o4mum
o4munt
o3my
2ona
on3a2b
on2ac
ona3g
o3nal
on3ann
onanz3ei
o2n1ap
o2n3arb
ona3th
4onatol
onat2s
o4n3at4t
on2au
2onä
on1äh
on2dan
onde4rers
ond1r
on2dra
on2drin
on2d3rü
ond3sk
2one
o2n1e2b
on1ec
one2ck
o3nee
o2nef
one3h
o3neig
on3ein
on3ele
on1ema
one4n1
o4n3ends
on2eng
onen3s2
onenz4
on1ep
o3ner.
on1erb
o2n1erd
oner2fa
o2nerh
on2erka
on1ers
o3nes
o3nett
on2eu
on3f2
on3gl
ong4le
ong4r
ong3s2
on2gue
2o3ni
oni3de
onie3g
oni2ga
o4nikan
o4nikb
o4nikf
o4nikg
o4nikk
o4nikl
o4nikm
o4nikp
o4nikr
o4niks
o4nim
o4nind
o4ninh
o4nins
on3k2
3onke
onk4n
onli4
onlo2c
onna2
on5n2an
on3n2e
2ono1
o3nod
o2nof
o2n1oke
o3nom
on1orc
on3ord
ono3s
ono3t2
ons1a
onsa2g
on4sam
onsau3c
onsch2
on2seb
on4sed
onsen1
onse4t
onsi2d
ons3ing
ons3l
on4spin
onst2a
onst4r
ons5tri
on3ta
on2t1eb
ont5end
on2t3erl
on2th
on2t3rat
2onuk
o3nur
2onut
on3v
1ony
o3ny.
on3z2
onze3in
oo1c
ooch2
oo2gl
oo2k3l
oo2kn
oo4mb
oo4mo
oo2ne
o1o2p
oo3pa
oop2s
o1or
oor3a
oor3d
oo4sk
oos3s4
oo2su
oo2t1a
oo4t1ei
oo2t1h
oo2t3o
oo2tr
oot2st
oot3t
oo2tur
2o1ö2
2op.
op3adr
op1akt
opa2le
op1ang
opa1s
opa5s4t
2opä
1ope
2o3ped
o4p1ef
2opei
2opel
2open
2opep
o2per
o4pera
op1erh
2o4pf.
op2f3a
op3fah
o3p2fä
o4pfe
op2fem
op2fin
opf3la
op3flü
op2fo
2oph2
o3phe
opi3a2
opia4t
opie2r3u
opin2
2opl
op3lag
op3le
op5leu
op2ne
2opo
opo4la
op2pan
op4pl
1oppo
op2p3r
2oppt
2opr
op3rec
3o4psi
op3sz
1opt2
2opte
op3th
o4pti
opt4r
o2pum
2o3py
2oq
2or.
or1a
2o3ra.
o1raa
2or3a2b
o2rabb
o2r3add
or3adr
".
Definition de_42 : text := "o1r2ag
1orake
ora4ku
o1ral
o4r3alm
or4alt
or2am
or3a4mi
o1ran3d
or4ane
oran2f
oran2m
oran2ze
or3app
2orar
o1r2as
o2r3att
2orau
oraus4wa
or2av
2o3raw
o1ray
o3rä
or1änd
or1ät
orb2l
or1c
2orca
2ord.
4orda
ord1am
or2d1ar
or2dau
2ordb
or3de.
ord3eng
ord3ermi
or2d3erw
orde4s
or2deu
or2d3ing
or2d1ir
or2dit
1or4dn
or2do2
2ordr
or4ds
ord3s2t
ord3t
2ordu
2ordw
2ore
ore4as
o2r1e2b
o2r1e2ck
or1e2di
o3ref
or1eff
ore2h
o2r1ei
o3rei.
o3reie
o3r2eif
o3r2eis
orems2
o3renn
oren4ne
o3rep
o2r1er
o3r2ere
o3r2ero
ore4th
o2r1eu
2orf
or2fac
org4a
org2e
2orget
or3ghi
2orgia
1orgi3e
or2gl
or3gla
or3gle
or2gn
or3gne
2orgr
2orh
2o3ria
2or2id
orid3i
4o3rie.
o3rien.
ori4eng
ori4enr
o4rienti
ori4env
o3rier
o3ril
ori3m
or1ima
ori4mi
2orin
o2r1ind
2or4io
o2riso
2orit
2ork
ork3sh
2orm
or2mam
or2mang
or2mans
orm3asp
or2m1eb
or2m3erf
or2mer2g
or2mor
orm3ord
orm3org
or2mum
ormu4n
or4muni
or4munt
ormwa5r
orna2c
orn3ack
or2nal
or2nan
or2nar
or2nau
or5ne.
or4nei
or5nes
or3ni
or4nin
or3no1
2o1ro
o2r1ob
or3oly
oro3n2a
or1opf
o2ro2r
o3rou
or1ox
2o1rö
2orp
2orq
2orr
orr4a
or3r2e
2ors
or3s4a
or3sche
or3sh
or3si
or3s4k
ors3tun
or3sz
or2t1ak
or2t1an
orta2r
or2tef
orte4n
or4ten3g
ort3erb
or2tere
or2t3erf
or2t3erg
or2terk
or2t3erl
orter4sc
or2t3e2v
or2the
orti3en
or2tin
or2t3off
or4t1o2r
or2tö
ort3rad
or2trau
or2t3räu
ort3re
or2tro
or2t1um
or4tü
or5tün
2o3ru
or2uf
or1uh
orum4s
o4r3un
oru2r
o2rü
or3z2e
orzel5
or2zw
2o3s2a
os3ad
osal2
o4s3ami
osa1s
2osc
o4s3ca
osch3ar
o3sche
osch3le
os4co
2ose
ose1e
ose1in2
os2el
ose3l2a
o2s1er2k
os2ex
2osh
o4sh.
o3s2hi
os2ho
o4shö
o4shs
os4hu
2osi
os4it
o3sk
o4sk.
2oska
os2kal
o4skb
o4ski
2os2kl
2os2ko
o4skr
o4sks
o4skv
o4sky
1osm
os4mog
2oso
osol1
o2sö
2osp
os5pfa
o3sphä
os3pi
o3s2po
os4pot
os4pt
os4pü
os2sa
oss2abb
os4s3a2c
os3sag
oss3ala
oss3and
os4sä
os2sei
oss3enke
os4s3enz
os2s1ep
os2s3er4b
osser2e
os2serf
osseri2
os2serz
os5set
os4sik
os4sim
os2s1o2
os4son
os2s3p
os2s3t
os4sü
ost3abl
ost1am
ost3ang
ost1ap
os5tarr
os4tat
ost1a2v
oste2c
oste2n
ost3engl
oster3e
os6ter6weit
ost3eur
os2t1h
os2tid
osti3en
os3til
os2tin
os3tina
os2tit
os3to
os4tob
os4tor
ost3ran
ost3rä
ost3re
ost3rot
ost3uf
os2tug
2osu2
os1um
osu4r
2o3sy
osyri5
o3s4ze
2o2ß
o3ße
o4ßef
o4ßei
o4ß1el
oß1ent
o4ß1en2z
o4ßep
oßer2
o4ß1erb
o4ß1ere
o4ß1erf
o4ßex
o3ßi
oß1is
2ot
o3tabe
o2t3abi
o2t1ah
o2t1ak
o3tam
ot1ant
o3tark
ot1a2st
o2t1att
o2t1au
o3tau.
ot1ä
o3te
o4teb
ote1i
o4t1eib
o4t1eic
otei4n
ote3in.
ote3ine
ot3einh
ote3inr
o4t1eis
ot2el
ote4l1a
ote2lin
otel3s2
o4t1emi
ot2em3p2
ote4na
otens4
o4tentb
ot1erb
o4t1er2l
o4t1erw
ot2e2s
ot2har
o2them
o2t1hi
o2thu
o2til
o2t1i2m
otli4
ot2o
oto3b
ot3off
oto2ph
o2t1ö
otra3c
o3t4ran
ot3rat
ot3re
ot3ric
ot4rig
ot3rin
ot2s3at
ot3sch
ots1o
ot2s3pr
ots3tau
ot3sti
ot3stra
ot2su
ott1a
ot4tan
ot4ta4s
ot2teb
ot2terh
ot2ter2k
otte2s
ot2t1h
ot2tim
ott2o
ot2t3r
ot3t4ra
ot4tri
".
Definition de_43 : text := "ot3t4ru
ot1url
o3tü
ou3f4l
oug2
ou4ge
ou3gl
o1uh
ou1is.
2oul
ou2le.
ou2les
ou4li
2o1um
2o2u2n
oun2ge.
oure2
ou2ret
ouri4
ourie4
ourme4
our4ne.
ou3sa
ous2i
ousi2e
1outf
ou3ti
3outp
out3s2
ou3tu4
2o1ü
ov2a
2ovel
o3ven
ove3s4
oviso3
2ovo
2ow
o4w3al
o3wec
ow2er
o2wer.
o2wh
owi3en
o3wj
ow4su
o2wu
2ox.
o1x2a
2oxe
o2x1el
o2xid
2oxk
ox3l
o2x1u
1oxy
o1yo
oy1s2
oz2
o3za
1ozea
2o3z4en
ozen2ta
ozes4sc
2o3zi
ozir3
ozon1a
2ozy
ó2k
ór3d2
ö3ba
öb4au
öb2l
ö2b3le
ö2b3r
öb2s3
2ö1c
öch1l
ö2chr
öch2s
öch4ste
öchst3ei
öchst3r
öchs2tu
ö3cke
ödel3l
öde1r
ödi3
ödienst6
öd2st
1ödu
ö1e
1ö2f
ö3fe
öf2fl
ö3fi
öf3l
öge3le
ögen2s1
ö2g3l
ö2g3r
ö1he
öhe4n1
öhl4e4
öhre4
öh3ri
ö1hu
ö3ig.
ö3isch.
1ö2k2o3
ö2k3r
ök2s
ö2l
3öl.
öl1a2
öl1ei
öl1em
öl4en
öl2f1ei
ölf2er
öl1in
ölk4e
öl2k3l
ölks4
öll1a
öl3le
3ölm
öl2nar
öl1o
ölo4f
öls2
öl3sa
öl3sz
öl3tu
1ölu
ölz4w
öm2s
ön2e
ö3ni
önizi1
önn2e
ön2s
ön3sc
ön3sp
ö3o2ta
öoti1
2ö2p
ö3pe
öpf3l
öp4s3t
ör3a2
öra4k
ör2b3l
ör1c
ör3de
ör2dr
ör3dra
ö2r1ec
ö2r1ei
ö2r1e2l
ö2r1e2m
öre2n
ö2r1ene
ö2rent
ö3r2erb
ö2r1e2r2e
ö2rer2f
ö2rer2g
ör2erh
ö2rer2l
ör2err
ör2erw
ö3r2erz
ör1ess
ör2f3l
ör2gl
ö2rim
ör2kl
örn2e
örner2v
ör1o2
örpe2
örs4e
ör3s4k
örs3t
ört2e
ör5tri
öru2
ö2r1une
ö2sa
2ösc
ö2sch3a
ösche2
ö2sch3ei
ö4schen4e
öscher4
ö4sch3erf
ö4sch3eri
ö2schi
ö2sch1l
ö2sch3m
ö2schn
ö2schw
ös1ei
ö2sein
öse3str
ö3set
2ösl
ö2sp
ös2s1c
ös2st
ö2st
öst1a2
ös3te
ös2th
ös3tr
ö3su
ößen3
öß2ti
ö2t3a
öte4n1
ö2t3r
öts2
öt2sc
öt2tr
öv2
öwe2
öze3
özes4
1p
3paa
p1ab
p2abe
pab2l
pab4rü
2pabw
3p2ad
2padr
pae2
pa3el
pa2es
pa3fr
3pag2
pa3gh
pa1ho
3pak
pa3kl
pak4to
3pal2a
pala3t4
3palä
3pal2e
pa3l2i
pal2ma
pal2mä
pal2m1o
2palt
pal2t1a
pal2tei
pal2tr
pa4m3a
pa2nar
pa4n3at
pan3d
pand2a
pan4ds
pa2neu
pang4
2pange
pa4nisl
pank4
2panl
panne2
pan4n3eb
4pannu
3pa2no
pan3sl
3pan3t2h
3panto
2pantr
3panz2
pan3ze
3pap
papieren4
papie6r5end
pap2pr
pap4s
papst1
pa2r3aff
par3akt
pa2rant
pa3rap
pa2rä
2parb
p2arc
par3d
2parer
parer2g
2parg
pargel4d
pa2rid
3park.
park3am
par2kau
par4kr
3parks
par3m2
pa2ro
2parp
4parr
4parta
3partei
3parti
3partn
3party
2parv
2parw
par3z4
pas2e
pa3s2p
pa4spe
passer2
pas2sp
pa4st
pa5str
2paß
2pat.
pat1a
pa5tag
pat4c
pat4e2
pa5ten
pat2h
3pati
3pat4r
pa5tri
3pau
4p1auf
pa3uni
4pausz
pay2
3pä2c
pä3cke
pä4ck3er
3päd
pä2d1er
3päs
pä4ta
pä4t1e2h
pä4tent
pä4tep
pä4t3erb
pät1h
pä2to
pä4tr
pät3s4
2pb
2p1c
p3ch
2pd2
pda2
pda4t
pe2a2
pea4r
p1e2b
pech1
3pech.
3peda
3peel
2pef
4p1eff
3peg
pege2l
pei1
4peic
p2eim
4peis
pekt2i
3p2el
pe4l3ab
pe4lai
pe2l1au
pe2l3ax
pe2l1ä
pelb2
pel3d4
pe4l1e2h
pe2l1er
pe2let
pe2leu
pe4lh
peli2d
peli4n
pe2l3ink
pel3inn
pel2ins
pel3k
pel3l2a
pell4e
pell2i
".
Definition de_44 : text := "pe2lob
pels2
pel3sp
pel3t2a
pe2lut
pel2zin
pena2r
pe4nas
pe2nä
pen3d2a
pe4nen1
3penh
pe4ni2t
pe2n1o
pens2a
3pen3s2i
pen3s2o3
pens2p
3pensu
pen3sz
pent2a
2pentw
penty2
penu2
pen3z4
3pep
pe3pi
pept2
pe1ra
4perad
pe2rak
pe2rau
pe2r1ä
per1e2b
perer2
perer3s
perer3z
pere1s
per2id
pe3r4io
3perle
per2r3an
3pers
4persi
peru4
pe3run
3perü
perwa4r
pe3s2a
3pes3s2
pes2ter
pest1o
3pet
pet4r
2pf
p2f1ab
p2fad
pf4ah
pf1ai
p2f1ak
pf1am
pf1ans
p2fa2r
pf3are
p2f1au
pf4av
p2f1är
p2f1äu
4pfe.
p2fef
p2fei
pf1eim
pf1ein
pf1e2m
p2fener
p3fens
p3fent
p2f1enz
p2f1ep
pfer3a
pfer4pro
pf4es
p2f1et
pff4l
pff4r
p2f1i2d
pf1inn
p2f1in3s
pfi2s
p2fl
pf1lam
pf4lan
pf4leg
pf3lei
pf3lo
pf4lü
4pf5lüm
pf4lw
pfo2
p2fob
p2fom
p2for
pf1ori
p2f3r
pf1ra
pf4rä
pf4ro
pf5roc
pf5roh
pf4rü
pfs2
pf3sa
pf3se
pf3sl
pfs4ti
pf3sz
pf3t2
pft4r
p4fuh
p2fum
2pg2
p3gl
pgra2
2ph.
ph2a
phal4te4
p1hand
3pha3s
p1hau
phä1
4phär
2phb
2phd
2p1hei
phen3d2
phe4n1e
phen3s4
2ph1ers
2phf
2phg
p2hid
phik1a
phi2kan
3phil
phi2t
2phk
ph2l
2phm
2phn
p2ho.
p2hob
2phö
ph2r
2phs
ph3t2
2phthe
phu4s
phu3t
2p1hü
3p2hy
4phyk
2phz
p2i2a3
piab4
pia5ka
pi4ali
pi4an
piap2
pia4tr
pi1ce
pid2
pi2e
pie1i
piela2
pieler4ke
pi3ent
3pier
pie2ra
pie2reb
pie2rei
3pig
pi3gl
3pil
pi3le
pill2
pil2zer
pil2zw
p2im
pi2nad
4pind
pingen2
ping3s
3pinse
pin3sp
pi2o
pi3onu
pi3os
3pip
pi2pe
pi4pel
3pirate
pi3ri
pi3s2k
2piso
pit2a
pi3t2h
pit2s
4pitz
pit3z2e
pi2z1in
3pizz
2pj
2pk2
pku2
p2l2
2pl.
3pla
4p3lad
p1lah
p4lak
pla3na
p4lau
pla2y
3plä
2p3le.
ple1c
ple2e
p4leg
ple3n2
2p3ler
p4leu
p4lex
2plig
3p4lik
p4liz
plo3n
2p3lu
plu2s
2pm2
p3mö
2p1n2
pob2
2po1c
3pock
3pod
3poe
po2el
2p1of
3pog
2poh
4poil
3po2in
po2it
poka2le
3pol
po2lan
po3lar
po2l1au
pold2e
pol3f
po3li
po3lo5p
pol3z4
pom2ph
poni2
3pont2
po1ob
3p2op
po4p1ak
po2p1ar
pop3l
po2pli
po3p2t
po1rau
po3re
porf4
pori2e
pork4
por3s
3portal
por2th
3portio
3porto.
3portos
3portr
por2tre
port3ric
3posi
poss2
po2sta
pos4t3ag
po2stä
post3ei
pos3tel
pos4tem
pos4tr
post3ra
post3ri
pot1ar
3potä
3pote
pot2h
poti2e
po2tin
pott1r
po2t1u
po3un
po2w
powe2
p2o1x
pö2bl
pö2c
2pp
p2pab
pp1ans
p2pat
pp1au
ppe3e
p2p1ei
ppe2l1a2
ppeli5ne
ppel3s
ppel3z
pp2e2n1
p2p1erz
pp3fr
p2p1h
pp3he
pp3l
p4p1lac
p4plan
p4p1lä
p2ple
pp1oh
p2p1ö2
pp3p
ppp4f
p2p3ra
p2prä
p2pri
pp3rol
pp3rot
pp3ru
pp3s2a
pps2p
pp3sy
ppt2
ppt4r
p4p1um
ppyl2
p2r2
2pr.
3prak
3prax
3präl
3präm
3präp
3präs
4pre.
4prec
3pred
4pree1
pre2ei
2preg
3preis
prei2s3c
prei4sei
prei2s5t
2preiz
3prem
pren2ga
2p3rer
pre3sa
pres3s2e
pri2e
2prig
pri2l1
p4rin
4pring
prings4
3prinz
pr4io
pri3o4n
3pris
pri2t1
priter2
prit5t4
4pritz
3priv
3prob
pro3be
3p4rod
3p4rog
3proj
3pr4om
3prop
pro3pe
3prosa
4pross
pro1st
".
Definition de_45 : text := "3prot
prot2e
prote3i
4prott
3prov
pro1x
3proz
2prö
2pru
2prüc
3prüf
4prüh
2prün
2p1s
ps1ad
ps2hi
psi2e
p2sö
pss2
pss4t
p2st
p4st.
p3sta
pst1au
p3stä
p3stea
p3stel
ps2th
p3s2ti
ps4to
p3stö
ps2tu
p3stü
3p2sy
4psys
ps2ze
2pt
pt1a
pt2ab
pta2g
p2tana
p2t3a4t
pt1ä
ptde1
p2t1e2b
pt3ec
pt1ef
pt1ei
pt1emi
p4t1en2g
p4t1ent
pt1ep
pt3ernt
pt1erw
pt1erz
p4teta
p4t1eti
p2t1h
pt1id
pti2de
pt1in
pto4mo
pto4na
pto2p
pto2w
pt3r
ptri4e
p2tro
pt3s2
pt4sl
pts4t
pt1uh
pt1um
p3tung
pt1urs
ptü4b
3p2ty
pt3z
ptz4w
pu1a
3pub
pub4l
2puc
pu2dr
2p1uh
2puk
pu2kl
pu2k1o
pu3la
pu2lin
pul2sp
pul2st
3pulv
4pulw
pum2pl
3pun
4pund
pun2e
pun2s
4punt
3pup
2pur
pu2ra
pu2rei
pur3m
pus4h
pu3she
pus3s
pu2s3t
3put
put2e
put2s
puzi3
2pü
3püf
pü4lei
pül3l2
2pv
2pw
pwa4r
py1
py3s
py3t
2pz2
1q
2qs
qu2
qu4ac
qu4ar
qu4at
qu4en
qu4er
que3rel
que4te.
3queu
qu4in
1ra.
r1aa
ra2ab
2raac
2raal
ra3ar
r2a1as
r1ab
ra2b1ar
r2abä
1rabbi
rab2b3l
2rabd
ra2bei
rab2er
rab3erd
2rabf
2rabg
2rabh
1rabi
r2able
ra2bli
ra2b5lo
2ra2br
2rabs2
2rabt
2r3abw
1raby
2rabz
ra2ce
2r1acet
ra2cheb
ra2cho
2rachs
rach4t3rä
ra2chu
r2ack
1r2ad
r4ad.
rada4
ra2dac
ra4d1am
ra2dan
2radap
3radar
ra2de4i
ra2d3end
3radf
3r4adh
r4adi
3radio
4radit
3rado
3radp
ra4d1r
rad3ri
rad3t4
rad5te
rad5tr
r2af
raf3ahn
raf3ar
rafe2
ra4f1er
raf3r
raft5s
rag2a
ragein2
rages4
2ragg
ra3g4le
4ragm
ra2gn
rag5ne
r2ago
rahle4n
3r4ahm
r1ahn
2ra1ho
4raht
r2ai
2raic
rail2l
2r3air
raka3
1r4ake
2rakk
3ra3k4l
ra4kre
ra4kro
ra4kt
2rakti
1r4akü
2rakz
r2al
r4al.
ra2l1a4
ra4l3ab
ra2lä
ral3b4
3r4a4ld
r4ale
ra2l3end
ra2lent
ra2l5ern
ra3lex
r4ali
ra2lid
rali3er
ra2lin2d
ra2l3ing
ralin4sp
ralin4t
2r3alk.
2r3alm.
2ralp.
4ralpe
r4als
ral3sc
ral3sk
ral3su
r3alt
3r4al3t2h
ra2l3u
3r4aly
rama3s
ra4mei
ra4mer
r2ami
r2amm
ram2man
ram4mens
ram4m3ers
ram4m3u
2ramn
3ramsc
2r1amt
ramt2s
2ramu
2rana
ran1ad
ran3ade
ra2nal
ra2nan
ra2nar
ra2nau
2ranb
r2anbe
r4anda
r4ande
ran2dep
ran2d3er
3r2andi
rand3s
1raner
2ranf
ra4ng
2ranga
ran2gan
ran4g3e4be
3rangi
r2angl
rangs4
rang3sp
rang3ste
rani3e
r3a4nil
ran3ka
ran2kr
ran2kü
2ranl
2r1anm
r2anmi
r2anmu
2ranna
ran5ne
2r1anp
2ranr
2rans
r2ans.
ran2sam
ran2spa
2rantei
r2anto
2rantr
1ranu
2ranw
r2anz.
r2ap
2rapa
ra2par
2rapf
2rapo
ra2pok
ra2pos
rap4pr
2r3a2pri
2r1a2q
r1ar
r2ar1a
2rarb
r2are
3r4arei
raren1
rar3et
rar1e2v
r2arf4
rar3in
ra3ris
r3a4rist
4r3arit
r2ark
2rarm
raro2
ra2rom
rar3r
2rart
2rarz
rar3zw
r4as.
ras2a
ra3san
ra2schl
r2asm
ra3spr
r2ast
ra2sta
ras4t3ei
r3asth
ras4to
2rasyl
2raß
1rat
r4at.
r4ata
ra2t1an
ra2t1ei
r3a2tel
3ratg
r4ati
ra4tid
rati2e
2ratm
rat2o
2ratom
ra5tor
rat3r
ra2tra
rat4re
rat5schl
2r3atta
2rattr
4ratz
rat3ze
4rau.
3raub.
rau2bri
rau3e4n
2rauf
rauf3sa
2rau3g2
3r4aum
rau2m3ag
rau2man
".
Definition de_46 : text := "rau3me.
rau2mi
3raup
4raur
2rausb
3raus2c
2rausd
2rausf
2rausg
raus4gewä
2raush
2rausl
rau2sp
2rauss
raus4sche
raus3se
2rausv
2rausw
rau3ße
2rauto
raut1r
rau2tra
rau2tro
raut3s
1raü
r2ax
raxi2
r3axt
r2ay
r2az
räch2s
3r2äd
2räf
rä3fr
2räg
2räh
2räm
3rän.
3räni
3räns
2räp
2räq
2r1är
r2är.
rä3ra
rä1ro
rä4sa
rä4sc
räse2
räte1s
3rätse
4rätz
rä2u
4räue
räu2s
räus4c
räu5schen.
2räuss
2räuß
4räut
2räx
2rb
r2b3a2b1
r3bac
rba4del
rb2al
r3bam
r2bang
r2bant
rb1art
r2barz
rb1auf
rbb2
rb1ech
rbe3erf
rbei3d2
rbe3inf
rb3einh
rbe3int
r4belä
rbel2o
r3ben.
rbe3r2e
rbe3rum
rbe3sl
r2bim
r2binf
r3bit
rbit2a
rbi3tu
rb4la2d
r2blan
r4blasser
r2b3last
r3blat
r3blau
r2b3le.
r3blen
rb3ler
r2bleu
rb2lin
rb2lö
rb2ob
r2bonk
rb3ras
rb3rea
r4b5rechts
rb4ri
rb4sam
rb2sei
rb2ser
rb2s1o
rb4stä
rb2su
rb2u
rbü4b
rby4t
2rc
r1ce
r2cer
r1che.
r1che2n
r1ch2i
rch3l
r3chlo
rch3m
rch3r
rch4ro
rch1s4
rch3t2a
rch3w
r1ci
r2ck
r3cki
r1cl
2rd
rd2ac
r2daf
r2d1ak
r2d1a2l
rd2amm
rdani1
r2dann
rd1ant
rd1ara
rd1ark
r2darz
rdär2
r3dee
r2dei
rd2ei.
r2d1elb
r2de2le
r2delf
rdem4
rden3d
r2dengl
r2dents
rde3ob
rde3ono
rde3r4er
rderin4s
r2d3ernt
rder3w
rde3sp
r2d1e2x
rdie3ne
rdien4s
rdiensta4
r2d1inn
rd1iri
rd1ita
r2dof
r3don
rd1os4
rdo4st
r2d1oz
r2dö
rd3rat
r2drau
rd3ris
rd4rö
r3d4rü
rd3s2a
rd2sän
rd3s2k
rd3s2z
rd3t2a
rd3th
rdt4r
rdt2s
r2d1uk
rduns3
rdwa4
1re
3re.
re2ade
rea4l3erw
4re2am
re3as
re3at.
re3ats
reatu3
2reä
re2b1a
re2b1l
reb3so
rech3ar
4rechs
rechter4
2rechth
2reck.
2recki
reck2st
re4ct
3red.
re3da
4redd
re2del
rede3r2
2redi1
re2dik
3redn
3redu
re1ebe
re1el
re1em
re1eng
re1er
3refe
4reff
r2eff.
3refl
3refo
3reg
rege2l3ä
4r1egg
re3gi
re2hac
re2h1ar
re2h1ei
re2hen4e
re2h3ent
re2hi
reh1l4
re2h1o
re3hol
3rehö
2rehr
reh3re
reh1ro
reh4th
re2hü
r2ei.
r2eib
rei2bei
rei4bel
rei2ble
reib1r
rei2bra
r2eic
2rei3d
r2eie
4reier.
reier2t
rei2fei
2reig
3reigä
3reigeh
r2eigel
4reigens
3reigi
4reign
3reigru
r4eih
rei3l2a
rei3l2i
2r1eilt
reim2p
r1ein
2rein2a
rei3nal
2reinb
rein2du
rei3n2e3c
reinen3
2reinf
rein4fe
re2info
2reing
2reinh
4reinn
4r3einr
2reins
4reinsa
rein4sel
rein4sz
2reint
re1in2v
2reinw
2reinz
2reisar
2reisb
reises4
2reisf
2reish
2reisr
4reisu
2reisv
2reisw
reit3s2
3rek
4re2ke
4rekk
2rekz
r2el.
r2ela
re3lat
2relb
rel2e
relea2
re5lei
re2lek
4relem
r2elev
2relf
reli1
2relit
2relix
r2ell
rel2lar
rel2lei
re3lo
r2els
2relt
relu2
3r2em.
2r1emb
rem2da
re2m1ei
re5men
2remi
re3mig
r2emit
2rempf
rems1c
rem4str
2rem2u
r2en.
r2ena
2rena.
re4nac
re3nad
re3nal
re4n3an
re2nä
2r1endg
3rendi
ren3dr
2renerg
2rengag
ren2gan
2rengp
3renh
re2ni
re3nik
3renm
ren2nar
ren4nene
renns4
renrü2
ren4sein
rens2p
r4ent.
2rentd
4rentera
2rentf
3rentfo
2rentg
2r1entl
rentmo4
2r1ents
3rentss
2rentw
2rentz
r2enz
ren2zan
ren2zer
renzer4f
renz3er4s
renzer4w
ren2z3in
ren2zw
re2ob
re3or
3repe
4re2pen
2repi
re2pis
2repoc
".
Definition de_47 : text := "2r1e2pos
4repp
3repu
3r2er.
rera2
2r1erb
3r2erber
rer2bi
rere2
2rereig
r1erek
re2r1ep
3r2erer
r1erf
4rerfah
r4erfe
2rerfi
2rerfo
r2erfr
r3er2fü
r1erg
2r3ergeb
3rergebü
r2ergen
3r2erges
2rer2go
rer2gr
r2ergru
r1erh
rer2hö
re2rid
r1erk
rer2kan
rer2ke
4r3erken
3r2erki
3r2erko
r2erkre
r1erl
2r3er2la
5r4erlag
2r3erleb
r2erli
2rerlö
r1erm
3rermo
rer2n
2r1ernä
r1er3ne
2r1er4ni
4r3erns
4r3ernt
re2rosi
2r1er2ö
r1erre
rer4reg
rer2rei
r1erri
3r2ers.
2r1ersa
r2erse
2rersp
rer2spa
rer2sta
r2erstr
2rer4su
r1ert4
r2erte
2rertr
r1erw
2r3erwa
rer2wac
rer2wec
r2erwes
2r1erz
rer2zä
3r2erzy
3r2es.
re2sa
re4sam
resche2
re2schm
re2schw
rese2h
re2s1of
3resol
3reson
re2spa
2ress
4resse
res3sei
res4s3erw
4ressu
re1sta
res4tas
res4tent
res2tex
2res2tu
3resu
re2t1ak
2re2tap
re2tau
ret2e
2r1e2th
re2tra
re2trol
re2u
reu4eri
reu3g2
2reul
re3uni
2r1eur
reu2zei
2reü
4r3eva
2r1evid
rewa4r
re2wi
4rewo
2r1e2x1
3rez
2rezi
1ré
2rf
rf1a2ck
r3fam
rf3aue
rfe2i
r2fent
rfer3g
rf2es
rff2
rf3fe
rfi2le.
r2fland
rf4lä
rf3lic
rf4lö
rf4lu
r3flü
r2fo2b
rfolg4s
r2frauc
rf4ru
rf4rü
rf2sa
rf4sam
rf2s1ä
rf2su
rf2ta
rft4r
r3f2u
2rg
r2g1a2d
r2g1ah
r2g1ak
rga2ner
r2g1ap
r2garb
rg3art.
r2g1ask
rg4at
rgd2
rge4an
rge2bl
r3gebo
r2g1e2c
rg1ein
rge2l3er
rge2li
rgen2ge
rgen2z3w
r3ges
r2ge4tap
r2geto
r3gew
rg2ins
rgi2sel
r4gl.
r2glan
r3glanz
r2gleu
r2glig
r2g3lit
rg2log
rg2lu
r2g3na
r2gne
r2g3ni
r2g3no
r2g3oa
r2gob
r3gog
rg3op
r2g1or
rgö2
r2g1öd
r2g3ral
rg4rau
r2grän
r2greg
r2g3res
r2gret
rg3rin
r3grö
r3gru
rg3rüs
rg3sä
rg3se
rgs2ei
rg4sel
rg3s2i
rg3sp
rgs4pe
rgs4pi
rgs4po
rg3st
rgs2tu
rg3su
r1h2
2rh.
r2hag
2rhah
2rhak
r3halt.
r2haltb
r3han
r3has
2r3hau
2r3hä
r2he.
r3hea
2rheb
2rhef
rh4ei
2rheit
2rher
2rhi
2rhof
rho2i3
2rhol
r3hop
2rhot
2rhöl
2rhs
rhu2s
2r3hü
1ri
ri3ams
ri1an
ri2ano
ria1s
ri2ast
rib2bl
ri1ce
ri1cha
ri3chl
rich3ter
richt4spo
ri2cki
ri2con
ri2dau
r2ide.
2ridee
ri2d3e2l
ri2dent
r2i3di
2ridol
2ridy
r2ie
rie2fem
4riefm
rie2f3r
rieg4s3
ri2e1i
ri1el
rie3l2a
ri3els
ri4enä
riene2
rien3s
rie4nu
ri1er.
rie3r2e
riere4n
ri3ers.
rie3sa
ri1eu
ri2fa
ri2fä
ri2fei
ri2fer3
rif4f3end
rif2fer
ri2f1o
ri4fr
rif3s
rif2ter
3rig
4riga
4r3i2gel
ri2gene
4rigg
rig1l
ri4glä
ri3g2o3
ri1i
rii4t
ri2kar
ri2kä
ri2kin
ri2kn
ri2kone
rik2op
ri2kor
ri4kt
ri3kü
2rima
ri4mag
ri2me.
2rimm
4rimp
rim2s
rim4sc
rim4st
ri3na
r1inbe
rin2c
2r1indu
ri3n2e
rine1i
rine3s
2r1inf
3rinfr
r2ing
3ring.
rin2ga
ring3le
rin2gr
ring3sp
2r1inh
2rinit
4rinj
2rink
rin2kl
rin2ko
rin2kr
2rinl
4r3innenm
2r3inner
2r1innr
r1innu
ri3n2o3
2r1in2q
2r1ins
rin4si
rin2so
rin2spe
r2inspi
rin3stei
rin3str
3r2insy
2rint
rin4tent
rin4t5re
2r1inv
rin2va
2rinz
ri2ob
r3ion
ri3o2st
ri2pl
ri3po
2r1ir
r2is
ris2a
ri3san
ri2scho
ri2schw
3risik
ri3s2ko
r3iso
ri4s3p
ris5pi
r3isr
3riss
ri4s3t
ris4t3ers
ris4th
rist3r
r2it
2r3i2tal
rit3ant
rit2i
2ri3t4r
rits2
ritt3a
rit2tau
rit4ter4f
rit4to
".
Definition de_48 : text := "rit2t3r
ritt2so
rit2u
r3i4tum
rix1
1rí
2rj
2rk
rka2b3l
r2k1ah
r2k1ak
rk1all
rk2am
rk1are
rk1asp
r2k1att
r2k1äh
r2kelem
r3kell
rke2n1
rken2er
rken3s4t
r2k1er2l
rk3ersta
r2k1er2w
r3k2es
r3ket
rk1im
rk4las
rk4lau
rk4lim
r2klis
rk2lo
rk4lu
rk4ne
rk5neu
rk5ney
r2kob
r3kol
r3kon
rk2op
rk1o2ri
r2kou
rk2ö
rk3räu
r3kri
rk3rin
r2k3rom
r2krou
rk2sal
rk2sei
rk2sel
rk2ser
rk2so
rk2sp
rkstati4
rk2stec
rk2stoc
rk2ta
rk2tel
rk4t3eng
rk4tent
rk2t3erf
rk2terg
rk2t3erl
rkt3ers
rk4tersc
rk2t3erw
rk2t3erz
rk4teta
rkt2i
rk2t3in
rk4t1o2
rkto4b
rk2t3r
rk4tri
rk2tum
rk4tü
rk1ums
rku2n
r3kup
rkur3s
rku2sa
r2küb
2r1l
rl2ab
r3lag
rlan2d3i
r2l1ar
r2l1a4sc
r2l3aug
rle2a
r3lec
r3leg
r3lep
rl2et
r3lex
r3l2i
rlicht6e
rli4ne.
rli2s
r3l2o
rlou1
rl2ö
rlös3s
rls2a
rl2spr
rl3ste
rl2s5to
rl3t
r3l2u
rlus6tr
r3ly
rlz4w
2rm
r2mab
r2m1ad
rma2la
rm1ald
rmali3e
rm1ami
r2m1ank
rm1anz
r4m3aph
r2marc
r2marz
rma4spe
rmas3se
rmat2o
rm3d2
rm1ef
r2m3einh
rme4na
rm2ene
r2ment
r2meo
rmer2fo
rm1erg
r2m1erh
r2m1erl
r2m1erp
r2m1erw
rm2es
rme1st
rmes4z
rmeta2
r2mide
rmi4nanz
rminen2
rmi4neng
r3minh
r2m1ob
rmon3s4
rm1o2ri
rmo1s
rm3p2
rm3sa
rm3s2k
rm3sta
rm3t
rmt2a
rmu2n
r4muna
r2muni
rmwa4
2rn
rna2b
rn3ab2i
r3nad
rn4ade
r3nage
r2n1all
rna4n
rn4and
rn3ani
r2nanz
rna2r
rn3are
r4n3ari
rn3arra
r4n1a2st
r4n3att
rn3aug
rnd2
rn3de
rn3d4r
r2nef
r3neho
r3nei
rn2eid
r4neif
r4neis
r2n1elf
rn1ema
r2nemu
rne2n
r2n1ene
rn2eng
r2n1e2p
rn1erg
rn2erhi
rner2ke
rner2ku
r2n1erl
r2n1ert
r2n1erw
r3nes
r3n2e2t
rnet1e
rne4to
rnet3r
rn2eu
rne3uf
rn3f
rn3g2
r2nid
r2n1in
r4ninf
rn2ing
r3nit
rnk2
rnn2
rn1ob
rn2obr
r3nod
rn2oh
r2n1op
r2n1or
rno2w
rn1ö
rnö2d
rn3sa
rn3s2ä
rnse4ha
rn3s2p
rns2u
rn3s2z
rn3t2a
rn3t2e
rn1ur
r1nü
r1ny
rnz2
ro3ar
ro3as
r2oba
2robj
1r2obo
ro2bo2r
2robr
ro2bre
2robs
ro1c
roch2a
3rock.
r2o3de
rodi4e
rod4r
roe2
ro2ed
ro4fen
2roff
4rog.
ro3g2a
3rogg
ro2h1in
roh1l2
4rohn
ro2hö
3rohr
1roi
ro3in
ro1ir
ro2it
rok2l
ro3le
ro2liv
rol2lan
rolle4
rol3len
rolls4
r4olo
rol3s
2roly
4rom.
ro4mad
ro4mal
3roman.
2romb
ro4mei
romen3e
ro4m1er
ro5mes
4romm
2romn
rom3s
4romt
r2on
ro3n4ab
ro2nan
3rond
ro2nerb
roni2e
ro2nika
ro4niki
4ronk
3ronn
ron4tan
ron2tel
ron4tend
ron4t3r
ron2t1u
ro1ny
ro1o4f
rop2a
2rope
2ropf
1ropl
ro3pn
2ropt
r1or
ro2r3al
ro2rat
2rorc
ro2rel
2r3orga
ro2ro
ror3th
rort2s
ror2ü
ro3se
ro3sh
ro3s2i
ro5sin
ros4ko
ros4p
ros6sac
ros4sal
ros4san
ros2s1c
ros4senk
ros4st
ro1sta
ros4t1r
ros6tri
ro2sum
4r3osz
roßen2
ro4ßenk
ro4ßi
ro2tan
ro4tas
ro4t3au
ro2tä
ro2tei
rot3s
rots2o
rot2ta
ro3tu
3roul
ro3unt
3rout
ro5win
2rox
rö2b3l
rö2du
2röf
rö4fe
3röh
2r1ök
1röl
2röl.
rö3le
röl2l
r1ölp
3römi
r1ör
r2ös.
rös1c
r2öse
1rösl
3rötu
2rp2
r3pa
rper1e
rperer3
rper3in
r3pf2
rpf4l
rp4fu
r2pli
rp4lu
r3po
rp4rä
r3pri
rpro1
r5prod
r3prü
rp3se
rps3t
".
Definition de_49 : text := "rp3t
r3pu
2rq
2r1r
rr2ab
rrat2s
rr1auf
rr1äm
rrb2
rr1c
r5rega
r5regi
r5regl
rr2ei
rre2le
rre2pa
rrer2
r2rerh
r2rerl
rre2ve
r4rezi
rr2hen
rr2hos
rri3erm
rri3k2
rr4is
rrm2
rr2n3au
rr2o
rr3obs
rrr2
rr2st
rr3sto
rr3str
rr3stu
rr2th
r3r2u
r3r2ü
rrücker4
rrz2
2r1s2
rs3ab
r3sabo
r2s3a2d
rsa4lin
r4s3amp
r4s3amt
rs3ana
r2sanf
rs3ang
rs3anm
rs3ant
rs3anz
rs3ar
r3s4ark
r3sau
rs4au.
rs4aue
rs3äm
rsch3e2b
rscheiner5
r3schen
r4scherl
r3schu
r2s3ebe
rse2e
r2s3ef
r2s3ein
rse2n
rse4ne
r2sepi
rs3ere
r2s3erh
rs3erö
rs3ers
r2s3erz
rse2t
rs3eta
rs3eth
rsha4k
r3shav
rs3hi
r3shir
r3sho
r4shu
rs3inf
rs3ins
rs3k
rs4kal
rs4kan
rs4kel
rs4kie
r4skir
rs4kis
rs4kla
r4skn
rs4kop
r4skor
r3s4kri
r4sky
rs3l
r3s4mog
r3sno
r3so
r4s3ob
rs4om
r4s3op
r4sord
r4s3orie
r4s3ort.
rso2s
rs3ost
r3span
rs4pel
r2s3ph
r3sphä
r3spi
r3spl
r2sput
r3spü
rs3s2
r4st.
rst3abl
r3stad
rst3ala
r2stale
r2stans
r2stant
r2stas
r3statu
r3stä
r3sted
rst2ei
rst3eing
rst3eint
rs4t3emi
rs4temp
r4sten
rster2
rst2erb
rst3erl
r3stern
rst3er4w
rst1h
r3s4tie
r2stin
rst3ing
r3stink
r2stip
r2stit
rs4tob
rs4tor
r2stot
rs4tr
r2stran
rs5tren
rs4tuc
r3s4tü
rs3uml
rs3un
rs4ung
r3sy
r4szä
rs3zi
rs4zin
2rt
r2tabo
rt1abs
rta2ck
r2t1a2d
r2t3ae
rt1aff
rtag4s
rt1akr
r2t3albe
rta3l2e
r2t1all
rtals1
rtal2se
rt1am
rt1ann
rt1ant
r2tanw
r2t1ar
rt3att
r2taut
rt3äh
rt1änd
rt1ärm
r3tea
rte1e2
r3teh
rt1ein
rt2eind
r4t3einh
rte2i3s4
r2telf
rtels2t
rtem4e
r2temo
rte2n1
rte4na
rten3s4
r4t3ents
rten3z
rteo2
rt2ep
rter2fa
rt1erh
rter2ha
rt1erk
r2t3er2la
rter4mit
r2t3ernä
r2ter2ö
rter4re
rt1ers
rt2ersp
rt1erz
rte3sk
rt1he
r2t1hi
rt2hum
r2t1id
rti2en
rtik2
r2t1ima
r4t3inf
rt2is
rt2it
rt3l
rt3m
r2t1ob
rto3pf
rt1orc
r4torg
r5tork
r4trak
rt3ram.
rt3rams
rt3rand
rt3rati
rt3rec
rt3re1s
r4t3ris
rt3rol
rt3roma
r3trop
r2trou
rtrü2c
rt3sc
rt2s1eh
rts2el
rt3sex
rts3ing
rts1o
rts2tie
rt2su
rt3t
rtt4r
rt1umb
rt2u3na
r2t1urt
rtu4t
r2t3ute
r3tü
r4tüb
rt3w
rty1
rt3z
rtz2a
rt4zb
rtz4w
1ru
ru1a
ru4ale
ru3a2r3
rube4
ruben3
rubens4
rub2i
ruchter4
rucht3s2
ru2cka
ru4ckerl
ru2cku
ru3de
rude2a
ru2dr
ru2et
3ruf
ru4f1a
ruff4
ru4fo
ruf2s
rufs3p
ruf2ter
ru2g3r
3ruhm
2r1uhr
3ruin
ru3ins
ru1is
2rum
ruma2
4r3umd
4rumf
4rumg
ru2mi
4ruml
r2ums.
4r3umsa
4rumsc
4rumw
4rumz
2r1una
2rund
run4d1a
runden3e
run2d3er
runder4n
runder5t
run2do
ru3nei2
2r1unem
run2en
4r1unf
run2ga
2rungl
run2gla
4r1u2ni
r3unio
ru4nis.
run2kr
2r1unl
2runm
4runn
4runr
r1unse
4r3unt
4runw
2rupd
rupi3
ru5pre
2r1ur
ru2ra
ru2r1e
r4us.
rus4p
rus2s3p
rus4st
ru2tab
rute4
ru4tei
ru4t1el
ru2t1er
ru4t1o4
ru2t3r
ru2z3w
1rü
2rüb
rü4bc
rü4bs
4rübu
rü1ch
rü2ckel
rück3sta
rü2hel
rüher2
rüh1l
4rümm
rü4na
rün3z
2rv
rv2el
rve4n1e
r2ventz
r3veo
r3ver
rve3s
r3v2o
2rw
rwe4gel
r5weis
rwelt2s
r3werk
r3wert
r2wo.
r3woh
r3wort
rwun3s
2r1x
1ry
2r1y2a
ry2c
rygi3
ry1la
ry2le
ry1os
ry3sth
".
Definition de_50 : text := "rysti3
2rz
rz2ans
r2zar
r2zat
rz2än
r3zeic
rzell2
r3zene
rz1eng
r2z3ente
r2zents
rze2p
rze2ra
r2z1erd
r2z1erf
r2z1erg
rz1erk
r2z1erl
rz3ersc
r2z1erw
r2z1ess
r2z1id
rz1int
rzir3
r3z2of
r2z3ot
rz2tan
rz3te
rz2th
rzu4g3l
r3z4wec
rz4wer
r2zwir
1sa
3sa.
3s2aa
2s1ab
sab2ä
4sabd
sa2ben
3sabet
sa2bit
sa2bl
4sabm
sa2br
4sabs
4s3a4bw
3sac
4sacc
sa3chal
5sache
sa2cho
sach3t
s2ack
2s1ada
sa2der
s1adm
2s1a2dr
3safa
sa4fe
4s1aff
sa3f4r
3s2aft
saf4tr
3saga
sag2e
5sa3ge.
5sagen.
2s3a2gent
2s1agg
sa2gio
s1a2gr
sah3l
s2ahs
3s2ai
sa3i2k1
sail2
sai4r
2s1ak
sa4ka
sa5ka.
sa5kar
sak2e
3saki
3sako
4sakt
sa4kus
3s2al.
3s2al2a
sa2l3an
sa3l4at
sal2ä
3s2alb
sal3bl
3s2ald
sa2lerk
3sa3li
sa4l1id
s1all
sal3la
sal2le.
3s2al2o
sal3or
sal2se
s1alt
s2alth
3salz
3sam
4s3a4mat
4s1a4mei
sa4min
4s1amma
4s1amn
s1am3p4
4samph
sam4ta
sam4to
samt3st
s1an
s2an.
2sa2na
san4at
sa2nä
2s3anb
s2an2c
3s2and
s4and.
san2dan
san2dri
sand3s
sa2ner
3sang.
2sanga
2s3anh
3sani
3sanken
4s3anl
2sa2no
2s3anp
2s3ans
s4anse
san4sk
san3sp
2santei
4s3antr
2s3anw
2sanz
2s1ap
sa2pe
s2aph
sapi3
sap3p
3sapr
2s1a2q
2s1ar
3s4ar.
3sara
4s3arb
3s2ard
s2are
4s3area
3sarg
sar2ga
sa3rin
sa2rom
s2ars
4sarti
sa4r1u4
3sas.
sas2a
s1asc
s1a4si
2s1a4sp
4sa2sy
sat2a
satan4
sa2t3ant
sat1ei
2s3a2tem
s3ath
3sat2i
4s3atl
4satm
sat2o
sa4tol
sa2tr
sa3ts
s3atta
4s1attr
3satza
sat2zel
sat2z3en
s1au
3sau.
3sauc
3sau2e
2sauf
4s3aufb
3saug
saug3le
sau2gr
3saum
3saur
4s3aura
sauri1
2saus
3saus.
4s3ausb
4s3ausf
4sausg
sau2sp
4sauss
4s3ausw
2sauß
s1av
sa2ve
sa2xi
sa2y
1sä
3säb
3s2äc
3s2äg
s1äh
4s3ähn
3säl
4s1ält
2s1äm
4s3änd
2s3äp
2säq
2s1är
3s2ärg
4s3ärm
3s2ät
3säul
4säuß
2sb2
s3ba
sba4ne
sbau4men
s3bä
s3be
sber2e
s3bi
s3bl
s3bo
s3br
sb4ra
sb4ri
s3bu
s3bü
sby3
1sc
2sc.
2scab
2scac
2scal
2scam
2scar
2scat
2s1ce
4s3cei
4sch.
3schaf
s4chal
sch3ana
4schanc
2schang
4schao
4schara
sch3ar3m
s2chä
2schäq
4schb
4schc
2schd
sch2e
3sche.
4schech
sche2f
4schef.
4schefi
4schefs
s4chei
4sch3ei.
sch4ein.
s2chema
4schemp
sch3erfü
2scherk
sch3erla
3sches
4sches4s
4schex
2schf
2schg
2schh
2schi4d
2schiru
3schis
2schj
2schk
s4chl
sch4lac
2schle.
4schlein
2schmed
2schmö
2schmy
s4chn
2schn.
2schneb
2schnum
3schop
2schorc
4schör
4schp
2schq
2schrad
2schre.
2schres
2schrin
4s3chris
sch3rom
2schron
2schrou
2schrus
4schs
sch3s2e
sch3s2k
schs2o
sch3s4ti
4sch3t
scht2a
scht2i
s4chu
2schunt
s4chü
2schv
s4chw
sch4web
2schweg
4schwerk
2schwet
2schwid
2schz
2scj
2s3cl
2s3co
4scoa
4scom
3s4co4p
s2cor
2scs
2scu
2scy
2sd2
s3da
sda5me
s4daq
sdä1
s3de
sde1s2
s3di
sdie3n2e
sdi1st
s3do
s3dr
s3du
1se
sea2n
se3at.
seb2
3sebä
2s1e2ben
2s1echo
sech2st
2s1echt
2s1e2ck
se2dik
3see
see1i2
se2e3ig
se2el
se3elem
see3len
se3en.
see3n2e
se1eng
se1enk
se1enl
se1enp
see1ra
seer4e
se1erf
se3e2r1i
se1erk
se2e3s4
2s1eff
".
Definition de_51 : text := "sef4l
3s2eg
4s3e2gal
se2gl
seg4r
seh1a
se2ha2g
se2hak
se2hel
seher2e
se2herk
se2h1in
seh3l
se4h3ö
seh3ra
seh3re
seh5ri
seh1s
se4ht
seh1ur
se2hüb
2s1ei.
2s1eid.
sei3da
2s3eifer
2s1eig
s2eim
s1ein
3s4ein.
2seinb
sein2du
2sei3n2e
seine3i
2seinfl
sein4fo
2seing
2seinh
2seini
2seink
2seinl
2seinn
sein4ne
2s3einr
s2eins.
2seinsc
sein4stit
sein4str
2seint
sein4to
4seintr
2seinw
2seinz
2s1eis
3s2eism
3s2eit
seit2s
3sek
4s1e2kel
4sekz
s2el.
se2l1a
3s2elb
sel3d4
sel1ec
se2lef
2s3e2leg
2s3elem
se2ler
sel3ers
2self.
selin2s
s3e2lit
2s1elix
sel3m
s2eln
se2lob
s2els
sel3sz
selt2e
sem2e
2s1e2mis
2s3emp
s4en.
3sena
se4na2d
se3nal
sen2alg
se4nas
sen3au
se2nä
s2enb
4s1endl
sen3d4r
s1endw
senen1
4senerg
s2enf
3s4eni
se2nid
se2n1im
3s2enk
sen4keli
se2no
se4nott
se4noz
s2ensa
sen2s3e2h
4sensem
sen4sers
s4ensi
sen2si2d
s2enso
senst2
sen4s5turm
sen3t2a
sen3tä
2sentd
4s3entf
2sentg
4sentla
2sentn
s2ento
sen3tr
4s1ents
2sentw
4sentwu
4sentwü
4sentz
se4n3u2
sen3za
sen2zer
sen3zw
seo2r
3sepa
se2pen
s1epi
3seq
3s4er.
se2r3a2d
ser3al
se3rand
se1ras
ser3äus
serb2
s3erbe.
serd2
se2r1e2b
se2r1ed
se3reie
4sereign
ser3eim
sere2m
5seren
se2r3enk
ser3ent
s4erfe
s1erfo
s2erfr
s1erfü
serg2
ser3ga
ser3gl
s2ergr
2s1erhö
se2rid
5serie
se4rinf
serk4
se4rm
ser4mah
2s3ermit
s2ern.
s3erneu
2s3ernt
sero4b
2s1e2ros
s1erot
s1erö
2seröf
ser3r
s4ers.
2sersa
2s3erseh
s3erset
sers4p
se3rum
ser2um.
se3rund
se3rung
s3e2rup
3s4er3v
s1erz
3s2es.
se3s2a
se2sel
se3sk
2s1essa
se1sta
se3stec
se3stei
se3stemp
se1sto
se1stu
se3su
4s3e4tap
se2tat
2s1e2th
set2i
4s1e2tik
se3tun
3setz
3seuc
2s1eul
seum4sc
se1u2n
se2va
4s3evan
s1ex
3sex.
2sexa
sex4am
se2xe
sex3en
s2exi
s2exo
4s3exp
sex3t4r
3sexu
2sexz
1sé
2sf2
s3fa
sf4ak
s3fe
s3fi
s3fl
sf4la
sf4lö
s3fo
s3fö
s3fr
sf4ru
sf4rü
s3fu
s3fü
2sg2
s3ga
sgang4
s3gä
s3ge
sgeha2
sge2h3ab
sge3sa
s3gi
s3gl
s4gl.
s3gm
sg4mü
sg4na
s3gö
s3gr
s3gu
s3gü
2s1h
sh2a
3sha.
s3halb
shal2li
shalt2
4shan
s3hau
s3hä
s3h2e
sh2i
3s4hi.
s2hip
shi4r
sh3n
4s3hoc
4s3hof
s3hoh
s3hol
4shom
3sho2p
sho4re
3s4how
s3hö
sh2r2
sh4re
s3hu
1si
si3ach.
2siat
3si1c
si2cha
2s1idea
2sidee
2s1ideo
si3der
s2i3do
2sidy
3s2ie
sieben3s4
sie2bu
siege2s
sien3
si3ene
si3f
sif4l
3sig
si2g1a2
si2g1ei
sig4n
si2g3r
sig4st
si2k1ab
si2k1a2g
si2kak
si2kar
si2k1ä
si2k1el
si2kens
si2k3er4b
sik3erl
s4i2k3i
si2k3n
si2k3r
sik3s
sik3t2
si2ku
3silb
sil2br
sil2e
3sili
s1ill
3silo
2s1imm
2s3impf
sim4st
3s4imu
si3n4a
2s1ind
si3n2e
2s1inf
4sinfe
sing1a
sin3g4le
sin2g3r
sing3s2
2s3inh
s1in1i
sini1e
s2ink
sinner2
2s1inno
4s1inq
2s1ins
4sinso
4sinst
2s1int
4s3inv
sion4
s2ire
sirn4
2sirr
3siru
si2sa
si4sam
s2isc
si2schu
si2s1e2
si2si
s1i2so
sis1or
si2s3p
sis3s4
3s4ist
si2su
3s2it
si2tal
si2tau
si2tra
sit2u
sit4zerg
si2va
sive3
siver2
si2v3erf
si2vin
siv1o4
si2vor
siz2
1sí
2sj
s3ja
s3je
s3ju
2sk2
s3ka.
4skab
".
Definition de_52 : text := "sk4al
4skalk
s3kalt
4skam
4skana
4skanä
3skanda
skani3e
4skann
s3kanz
4skap
4s3kar
4s3kas
sk4at
ska4te.
4skateg
s6kater
ska4tes
ska4to
4skau
s3kä
ske2li
4ske2n1
3skep
4sker
s3kh
3s4ki.
s4kia
3s4kif
s4kig
3s2kik
s3kim
s4kip
ski1s
s2kis.
3skiz
4s5klas
sklat3
3s2klav
sk4le
4sklu
s3kn
sk4na
sk4ne
4skoh
4skol
4skom
4s3kon
3skop.
sko2pr
4skos
4skow
s3kö
4s3kra
s3k4re
3skrip
4s3kro
sk3t2
skto2
3skulp
4skun
sku2s1
s3kü
2s1l2
s3lab
3slal
sl4am
sla4ma
sla2ve
s2law
s3lä
sl3b
s3le
sler3s
s3li
3s4lip
slo3be
s3loc
s4loga
3s2low
s3lö
s3ly
2sm2
s3ma
sma3b4
sma3sc
s3mä
s3me
s4me.
sme3na
s3mi
smi2t3
s3mo
s3mu
s3mü
2s1n2
s3na
snab4
s3ne
s3ni
sni4a
sni3er.
sni3ers
4s3not
s3nö
1so
3so.
2s3oas
2s1o2b
3s2o3ba
4sobj
4soboe
so1c
so3ck
sodi4
so2do
so3et
2s1ofe
so4fen
s3offi
3soft
3sog
sog4l
s1o2he
3sohl
sohle2
2s3ohng
2s1ohr
3soi
so3id
2s1ok
3sol.
so3la
so4lau
3sold
3sole
so2l1ei
so3li
sol2la
sol2ler
3solm
so3l2o
so3lu
4s3oly
2s3omb
3somm
3s2on
son2a
son3au
sond2
sone4
sonen2d
son4gl
son3sä
son2s1o
so3o
so2pe
s1opf
3sopr
sop3s
2s3ord
sore2
so2rel
4s3orga
so1rh
2s1o2rie
so2ro
3sorp
3s2orti
so4ru
3s2os
4s3o4sk
4s3osm
4so1st
4s3osz
3soß
2sot
so3t2h
3sott
soun2
sound1
so3unds
so3unt
2s1out
3sow
2s1o2x
2s1oze
1sö
sö2c
2s1ö2d
2söf
sö4fe
2s1ök
2s1öl
2s1ös
1sp2
2sp.
s3pa.
4spaa
2s3pack
2spag
2spak
2spala
2spalä
s2pali
3s4palt
spa4m
s2pan
3spann
2spanz
2spap
2s3para
s2parka
2sparo
5s4parten
2spartn
2sparty
3s4paß
3spat.
2spati
4spatr
s2patz
2spau
3s2paz
s2pä
2späd
3späh
2s3pär
2späs
s2pe
2s3pe.
2speg
4spein
s4pek
2spensi
spe3p4
3s4perg
s3peri
2sperle
s3pern
s4perr
2spers
2sperü
4spet
s4pex
3s4pez
2s3pf
spf4l
2spha
s2phä
3sphär
s3phe
s4phin
s2pi
3s4pie
4s5pier
spier4r
spi2k
4spil
s4pinn
3spio
4spi4p
4s3pis
2spl
4spla
4sp4lä
4sple
3s4pli
4s3p4lu
s3pn
2spod
4spoe
2spog
s2poi
4s3pok
4spol
s2pons
4spoo
2spop
s2pore
3s4porn
spor4tag
4s3pos
4spote
s2pö
4spr.
s2pra
3sprac
2sprak
s4pran
2sprax
sp4rä
2spräm
s4prän
4spräs
3sprec
4spred
3s4pren
2s3pres
s2pri
s4pric
3spring
2sprinz
3sprit
2sprob
2sprod
2sprog
4sproj
4sprop
3spross
2sprot
2sproz
3s4prö
3spru
3sprüc
2sprüf
3sprün
2s3ps
s4ps.
2sp3t
2spub
2spud
3spuk
3s4pule
2spun
2spup
3s4pur
spu2rer
s4putt
2s3py
2sq
s3qu
2s1r2
s3ra
sr4at
srat2s
srat4sc
s3re
sre3cha
s3rh
s3ri
s3ro
sro2h
srö2s
s3ru
s3rü
srücker4
2s1s
ss3abi
ssa3bo
s5sack
ss2agi
ss1aj
s3sal
ss3alba
s4sall
s4samt
s2sanf
s4sang
ss2ann
s4sano
s4sans
ss2ant
s4sanz
ss2ara
ss2arg
ssa1s2
s2s3att
ssau4r
ssau5ri
s3s2ä
s4sce
ssch2
sschanker6
s3schw
s4scl
s4sco
s2scr
sse3a
ss1ec
sse1ec
s3seh
sseh2a
s2sein
ss2eind
sse3int
s2selek
sse2lö
s3sen
ssen4kel
ssen4sem
ss1epe
sser3att
sser2fo
ss4ergr
sser2hö
sser4mit
sser2öf
s3s4eru
sser4wei
".
Definition de_53 : text := "sser2ze
sses2sa
s2s3estr
s3set
sse3ta
s3si
ss3i2ko
s4sill
s4simp
s4sind
s4sinf
s4sint
s4s1isr
s3skala
ss3l
ssmut4
sso4f
ss1off
ssoi4
s3sol
s4sop
ss3ost
ss2p
ss4pat
ss4pec
ss4pin
s3s4prä
s3spri
s2spro
ss4pü
ssquet2
ss3s2
sssau4
sss4p
sss4t
s4st.
sst2a
s3stad
ss3tak
s3stä
sst2e
s3stel
s3s2tep
s3s2tern
ss4teu
sst2i
ss2tie
ss2t3in
s3stop
ss4tör
s3stran
ss4tras
s3s4trat
s3strec
s3strom
s3strö
ss2tur
s3stü
ss4tw
s2suf
s2sumg
s2sumr
s3sü
s3sy
2st.
s2ta
2sta.
3s4t4aa
3stab.
2stabb
2stabel
1s4tabi
2stabit
2stabl
4stabt
2stabu
st2ac
1stadt
2stafel
1staff
2stag
3s4tagl
3s4tagr
3s4tah
s3tai
2stak
3staks
2stala
sta3lak
2st1alb
s3ta3l2i
2stalk
st1alm
st1alp
st1alr
st1alv
st1a4mi
1stamm
1stan
2stanb
s4tand
2stanf
st2ang
st3anges
2stanl
s4tanm
4st1ann
s4tano
st3ansp
2stanw
s4tap
stapo1
stapos4
st1app
s4tar.
sta4rens
4stari
s4tark
s4tars
st1asi
sta4sie
stast4
s3tat.
s4tata
2statb
3stati
s4tau.
2stauf
s4taufs
3s4taur
2staus
s4taut
2stauto
s4t1a2ve
4stax
1s2tä
3s4täb
3s4täd
4stäg
s4täm
s4tänd
2stänz
4s4täp
3s4tär
3stätt
2s3täus
2stb
2st3c
st4ck
2std
4ste.
4steam
4stechn
ste2d
st1edi
2stee
3s2teg
ste2g3r
1steh
s2tei
st4ei.
4steic
st1eid
3steig
stei2gr
2steil
stei4na
2steing
s4teins
2steint
s2tel
2stel.
st1elb
s3tele
s3telf
st2ell
stel4l3än
2steln
2stels
2s3tem
4stem.
ste2mar
ste4ment
3stemm
2sten
s5ten.
ste4na
s4t3ends
s5t2ens
s4tentf
s4tents
st1e2po
2ster
4s5ter.
ste2r3a
s4terben
s3teren
3stereo
s3teres
st3erfü
3steril
4s3term
3s2ternb
s2t3er2zo
4ste2s1
ste3sc
stes2se
stes3ta
s4testn
2stet
s4teta
ste2tab
ste4tag
3s4teti
3s4tett
3s2teu
1steue
4steuf
st1eun
st1ev
s2tew
4stex
s2texa
2stf
stf6lan
2stg
2sth
st2hen
s2t1hi
st3ho
s4thö
s2thu
st1hy
2stia
2stib
s2tic
1stich
st1i2d
sti2e
2stie.
2stief.
2stiefl
2stien
1s2tif
2stig
sti2gel
3s4tigm
2s3tik
sti2kr
s2t2il
sti2la
1s2tim
2stimma
2stimp
st1inb
2s4tinf
s3tinn
s2tins
2s2tint
2stio
2stip.
s4tipe
2stipp
s2ti2r
st1ira
st1iri
st1iro
4stis
2stite
1stitu
2stiv
2stj
2stk
2stl
st3le
2stm
2stn
s2to
2sto.
sto2bl
2stocht
2stod
3stof
s4toff
2stok
2stole
s3tom
2s3ton
4stona
3s4to4ne
4stonl
4stoo
s4tope
2stopo
4s5tor.
s4torb
2s5tore
2storf
2s4torg
2stori
2storp
2stors
2stort
s4tory
sto3s2t
3s4toß
4stote
2stotr
4stou
2stow
2stoz
1s2tö
4stöch
2stöf
2s3töl
2stön
3stör
2stöt
2stp
2stq
s2tr
2strac
4s3trad
st4rade
stra4fa
4s3trag
1strah
2strahi
4s5trai
4strak
2s5tral
s3trank
4strans
1strap
3stras
3straß
2straum
4sträc
4s5träg
2sträne
2sträum
2stre.
s4trea
s4trec
4stref
2streg
4streib
3st4reif
2strep
2stret
4streuh
s4treuu
2strez
2strib
strie3s2
2s4trig
1s4trik
2s5tris
1stro
s3troc
3s4troh
stro4ma
s4trome
2stropf
2stros
st4ross
2ströp
1stru
2strua
2strub
s4trud
2strug
3struk
2strun
4s5trup
2strut
1strü
2st3s2
st4sb
sts4t
2st3t2
stt4r
st2u
1stub
4stuch
3s4tud
2stue
3stuf
st3uga
3s4tuh
s2t3uk
4stumo
stum2s
s3tum4sc
2stun.
st3una
5stund
2stune
s2t3uni
4stunn
".
Definition de_54 : text := "2stuns
2stunt
stu3ra
stu5re
st3url
4sturn
2st3urt
3s2turz
2stus
1s2tut
1stüc
4stüch
3s4tück
3s4tüh
4stür.
4stüre
3stürz
1stüt
2stütc
2stv
2stw
stwor2
2sty
4sty.
1s2tyl
4styp
4stys
2st3z2
stze3c
1su
su1an
3su2b3
su4ba
4subi
3su1c
su2cha
su2chi
su2cho
suchs3p
3sud
su2eb
s1uf
su4fe
2s1uh
su1is
su1it.
su2k
3sul
su3l2i
sum1a
su2man
su2mar
3s2ume
su2mei
su2mel
sument2
su4ments
su2m1et
2s3umf
su2m1id
su2min
3s2umm
sum1o2
su2mor
s2ump
s1ums
s3umsa
2sumse
2s3umst
su2n
3s4un.
2s1una
sunder2
sun4d3erh
2s1unf
4sungena
2sungl
sung4s
4s1uni
2sunm
2s1uns
s4uns.
s4unst
2sunt
2sunv
2sunw
s4unwa
3sup
4supd
sup3p4
su2ra
sure4
su2rei
su2rer
3surf
2s1urk
su2r1o
2s1ursa
s1urt
su2s3
su3s2a
s3u2t
su4te
su3tr
3suv
suz2
1sü2
2s3üb
sü4be
3süc
süd1
sü4da
süden2
3süf
3sün
3s2üs
3süß
2sv2
s3ve
s3vi
s3vl
s3vo
svoran2
2sw
s3wa
s3we
swe4gers
sweh2
s3wi
4swie
4swil
4swink
s4wist
4swit
s3wo
s3wü
1s2y
s3ya
2syl1
sy2lo
sy2lu
sym3
sy2n3
3synd
sy4no
3sys
sy4ste
sy3sto
2sz2
s3za
s3zä
s4ze.
4s3zei
4szel
3s2zena
s2zend
3s2ze3n2e
4s3zent
4s3zer
s2zes
s3zet
4s3zeu
3s2zew
4s3zie
4szim
s3zo
s3zs
sz3t
sz4ts
s3zu
s3zü
1ß
2ß1a2
ßa4si
ß3at
ß3au
2ß1ä
2ßb2
ßb4ri
2ß1c
2ßd2
2ß1e2b
2ß1ec
ß1ef
2ß1e2g
2ß1ei
2ß1ek
ße2la
ße2le
2ßelek
4ß1emp
ße4n3a2
4ßenerg
ße2ni
ß1enke
ße2no
ß2ente
4ßentl
4ßents
2ßentz
ß1e2p
ßer3b
ßer2ei
ßer2la
ß1erse
ßer3t
ß1erw
4ß1er2z
4ß1es2s
2ß1estr
ß1ex
2ßf
ßf4ru
2ßg2
ßge2bl
ß3gm
2ß1h
ßi2g1a2
ßig4s
ß3i2k
ß1il
ß1im
ß1in
2ßj
2ßk2
ß3kh
ßk4le
ßk4ne
2ß1l
ßler3s
2ßm
ßmut4
2ß1n2
ß3ni
2ß1o2
ßo4fe
ßos2
2ß1ö
ßö4fe
2ßp2
ß3pf
2ßq
2ß1r2
ßrö2
ß3ru
2ß1s2
ß3sa
ßsau4
ßsch2
ß3sk
ßst2
ßs4to
ßs4tü
2ßt
ßt1in
ß3tü
2ß1um
ß1unf
2ßunt
2ßunv
2ß1ü
ßü4be
2ßv
2ßw
2ßz2
ß3zs
1t
3ta.
t2aa
3taan
ta3ar
4tab.
3taba
ta2b3an
2t1abb
tab2bau
4tabd
3tabel
2taben
2tabf
2tabg
4tabh
2t3a2bit
2tabk
4tabla
4tablä
4tabm
2t3abn
2ta4br
4tabs
t1abst
2t3abt
3tabu
4tabw
4tabz
2t1ac
4tachs
3tacu
t1ada
2tadd
ta2der
tadi3
tadi5o4
t1adm
t1a2dol
t1a2dr
ta3d2s
4tadt
tad4tr
ta2er
3taf.
3tafe
4tafet
4taff
t1afg
t1afr
3tag
ta2ga
ta2g1e2i
2t3a2gent
tage2s
4t1agg
ta3gl
4t1a2go
tag4san
tags3c
tah2
tahls2t
ta3i2k
tai2l1
ta1ins
tai4r
ta1ir.
ta1i2s
2t1a4ka
2t1akk
2t1akq
ta4kro
tak4t3erf
tak4t1o2
2takz
3t2al.
ta2la
ta3lad
ta3lag
tal3au
3talbr
tald4
3tal2en
ta2l3end
tal3eng
ta2l3ens
3taler2
ta2ler3g
ta2let
tal2ga
tali4ene
tal2l3ac
tall3ei
tal2l1ö2
tall3s4
2t1alm.
3talo
ta2lop
ta2l1o2r
3t2als
t1alta
tal3th
talt4r
ta2lu
2tam
3tam.
3tame
t1a4mer
tamm1a
tam2m3er
t1ampl
3tams
4t1amt
t1a2na
tan3ab
4tanal
ta4nat
2t1a2nä
2tanb
3tan2c
tan3d2ar
tan2d3r
tand2st
ta2nerf
4tanf
2t1ang
t3angeh
t3angel
t2ango
tan2gra
2tanh
t2anho
t4ani
3tanj
".
Definition de_55 : text := "3tank
tan2kl
4tankr
4tankü
4t3anl
t1anm
2t1anna
3t2anne
t1ano
2tanom
2tanp
t1ans
t2ans.
4tansi
2tanspr
tan2tan
t2ante.
2tantei
2tantr
2tanwa
2tanwä
t2anz.
t1anza
3tanzk
t2anzp
3tanzr
2t1anzu
2tanzü
tan2z3w
tao2
ta3or
t4ape
ta2pes
2tapf
ta2pl
ta2poka
t2appe
ta2ra
2tarab
3tarabb
3tar5al
2taram
t2aran
ta3rant
tar3ap
ta3ras
t2arau
2tarb
3tarba
tar4beitn
3tarbek
3tarber
3tarbi
3tar3bl
2tarc
4tarchi
3t2ard
ta2rel
ta2r1er
tar3g
ta1r2h
3tari
2tark
tark4l
t2arl
2t1arm
t2armä
tar4nei
ta2rom
4tarot
2tart
4tart.
t2arta
4tarten
t2arth
t1arti
3t2artis
tar4to
tar2tr
4tarts
3tartu
3tartü
ta2ru
2t1arz
3tarzu
3t2as.
ta3s2a
tasau1
3tasc
t1asp
4taspe
ta3spr
2t3assi
3tast
tas4to
t2asy
2t1as2z
t4at.
ta2tab
ta2tan
3t4atb
t4ate
tat1ei
t5a2tel
ta2tem
3taten
ta2t1er
2t3atl
2tatom
2ta2tr
3tatsa
2tatta
2tatti
4tatue
tat3zw
tau2b1a
3taubh
tau2bl
tau2b3r
4taubs
tauchs4
tauch3sp
4taud
2t1auf
3taufe.
4taufk
4t3aufl
tau3f4li
4taufm
4taufn
t3au4f1o
4taufp
tau3fr
4taufw
3taug
4t3auge
t1auk
3taume
4t1ausb
3tausc
tau4scha
tau4schm
tau4schr
tau4schw
2tausd
t2aus2e
4tausee
4t1ausf
4t3ausg
t1ausk
4t1ausl
2tausr
4t3auss
2tausü
2tausw
4t3ausz
4tauu
3tav
4tava
3tax
4t1axt
3taz
tä1c
t2äf
3täg
4tägä
4tägy
2täh
4täll
2t1ält
2täm
tä4mi
t1ämt
t1ängs
3tänz
2t1äp
2täq
tä2reng
tä2ru
2t1ärz
tä2s
t2ät
3tätigk
4tätt
2täug
2täuß
2täx
2tb2
t3ba
tbauer2
t3be
tber2e
t3bh
tblocken4
tb4ra
tb4ri
t3bs
tby4t
2t1c
t3cha
t3che
tchen3
tch2i
tch3l
t3chr
t2ch1u
tch3w
t2ck
t3cl
t3co
tcor2
t3cr
tc4up
2td2
tdar2m1
tdä1
tdes2t
t3do
t3ds
tdun2
3te.
te2a2
te3ab
tea3c
te3ag
2teak
te3al
3team
3te3an
te3ar
3teba
t4ebb
2t1e2ben
t2ech
2techd
2techk
2techm
3techn
2techt
te2chu
2teck
te3cker
te2cki
2t1ecu
te2dit
3tee
tee3id
te1em
teen1
te2er.
te1erw
te2es
3tefa
2teff
2t1egg
2teh
3teha
te2hac
3tehä
3tehi
te2him
3tehö
t1ehr
te3hu
3tei.
3teic
tei3fl
2teign
teik4
3t2eil
tei4lent
tei3m2
2tein
teinen4
tei4nens
t3einkü
2t1eis.
t1eisb
te3isch.
t1eiw
tei3z4
te2kel
tekt4
3tel.
3te2la
tel3ab
tel1ac
te3lan
te4lant
tel1au
te2lä
telb4
3telbr
3tel3d4
tel1ec
tel3ehr
2telem
tel3eng
te2ler
tele3s
te2leu
4t3elf.
3telg
3telh
tel1in
t1e2lit
3telk
tel3le
tel4lein
tel3li
4tellu
3teln
te2lob
te3lom
te2lost
te2l1ö
3telp
3tels
tel3s2k
3telt4
tel3ta
3telw
t2ema
te2man
te2m1ap
tem3art
te2mau
2tem2bo
te2m1ei
te2m1er
te2mi
tem3i2m
tem3ing
te3misc
4temm
3temod
te2m1o2r
te4mp
5temper
4tempf
tem3s
te2mu
te4mun
3ten
t4en.
ten1a
te4na2d
tena2g
te4n3an
ten3ar
te4nas
te4nat
ten3au
te2n3ä
ten3da
4t3endal
tend2an
4tendap
4t5endf
t4endi
4t1endl
t4endo
4t5endp
t4en3d4r
te2n1e2b
te2nef
te2neh
ten3ei
te3n4ei.
tenei2d
tene4m
tenen1
te4n3end
te4nene
te4neng
te4nens
4t3energ
te2n3ern
4tenerp
4t1eng.
teng2a
2ten2gag
te2ni
te4nil
ten1im
te4nin
tenk4
ten3n2
4tenog
te2nol
te2nos
te3nö
6t3ensem
tens2p
tens3th
t1entb
4tentd
4t3entl
4t3entn
t1ents
".
Definition de_56 : text := "4t5entw
4tentz
t2enz
ten2z3er
teo4f
2tep.
t1epi
te2pil
3tepr
tept2
3t4er.
t4era
tera2b
ter3a2c
te2rad
te1ral
te2r3alg
te3ran.
te3ranb
te3rane
te2r3ap
tera4s
2t1erbs
2t1erbt
3terc
2t3erde.
ter3d2s
3tere.
te2r1e2b
te2rec
2t3ereig
ter3ein
te5rek
te2rel
ter3ell
3tere2m
te2rema
te2r3end
te2rene
te2reng
te2r3ent
teren3th
2tereo
3terer
terer3k
terer4ku
terer3l
te2r3erp
te2rers
te2rerw
3t4erfr
terg2
ter3ga
t4ergem
t4erges
t4ergew
ter4gieb
ter3gl
4tergrei
ter2gri
t4ergru
te4rh
t4erhall
t2erhan
t4erhau
t2erhäu
t2erhei
5t2erhi
5t2erho
t2erhu
te3ria
te2rid
ter3iko
2teril
teri4o
te2rit
ter3i4ta
3terkla
t4erlä
ter3lei
t4erli
ter2lös
ter2mer
t2ern.
ter2nar
2t4ernc
t4ero
te1rob
ter2obe
t1e2r1ö
ter3r2
t4erra
ter4re.
t4erro
t4ers.
t2erse
t4erst.
5t4erstad
t4erstä
t6ersted
ter5sterb
t4er3sti
ter3sto
ter3str
t4erstu
t4erstü
ter4sw
tert2
ter3ta
ter4trä
t4eru4
te4r1uf
te3rung
t4erü
t4erv
2t3erwäh
ter3z2a
2t1erzb
3t4erzei
ter3zw
3tes
t2es.
tesa4k
tes2c
tes2ka
te2s3pr
2t1essa
tes3tan
tes3tät
tes4tel
tester2
tes4terg
tes4t3erh
tes4terk
2testn
t3est3ri
te2su
3tet2
t1eta
te2tabl
4te2tap
2te2tat
teten3
4t1e2th
te3tho
te2tik
4tetl
tet3ti
teuer5b
teuer3r
3t4euf
teu4fa
3teum
3te1u2n
4teunu
2t3eup
3teur.
teu2rob
te2va
te2vi
tewa2s
3tewo
2texam
2t1e2xe
te3xel
2t1e2xi
2texp
tex4ta
2t1exz
tè2
tê4te
2tf2
t3fj
tf4la
tf4lö
tf4rö
tf4rü
2tg2
tga2s3er
tga2su
tge4nen3
tger2a
tger2i
tg4ra
2th.
2t1h2a
3tha.
3t2hag
4thak
3thal.
3thalh
t4hali
t2hals
4tham
t2han.
t3hand
4t3hap
4t3hau
2t1hä
3thäi
4thäl
2thb
th2e
3t4hea
2t1heb
4t1hef
2t1hei
the1in
4theit
t2hek
2thel
3thema
2themd
t1hemi
2themm
t1henn
3theo
t1herd
3therm
thero1
2t1herr
2t1herz
4t1hess
t2heu
2thf
th2i
3thi.
thic3k4
thi3er.
2t1hil
2t1him
2t1hin
thi3nu
2t1hir
2thk
2th3l
2th3m
thmu2
2th3n2
2t1hob
t1hoc
tho3chr
t1hof
2t1hoh
t2hol.
t2holo
t1hols
t1holt
2tholz
t2hom
t2hon
4thops
tho3ra
tho1s
2t1hose
t1hot
4thote
2thou
t1hov
2thö
2thp
th2r2
th4ro
2ths
2tht2
t1hu
2thub
4t3hun
2t1hü
2thv
ti3ac
ti1ag
4t3iago
ti3alo
ti1a4m
ti2ä
3tib
3ticc
ti1ce
3ticket
t2id.
ti3de.
2tidee
ti2d3en2d
ti3dy
3tief.
3tiefe.
2tiefel
3tiefen
3tiefl
tie2fr
2tieg4
2tieh
ti2e1i
ti1el
tiel3a
tie4n1
ti3ene
tien3s
3tier
tie2rei
tie2reu
tie3s4t
2tieß
ti1eu
3tif.
ti3fe
ti3f4r
tifter4k
3tig
ti2gerz
ti2git
tih2
3tij
ti2kam
ti2kar
tiken2
ti2kent
ti3k4ere
ti3kerl
ti2kin
ti4klu
ti2kn
ti2kop
tik1r
ti2kra
ti2krä
ti2krei
ti4kro
ti2lar
til3d
ti2lei
ti2lel
3tilg
2tillu
ti2lö
tilt4
ti2ma2g
tim2man
t3immat
timmer2
tim4merg
3timo
2timp
tim2s
3tin.
t4ina
ti3naf
ti3nak
ti2n3an
t1ind
ti3n2e
tine1i
ti5nen
2t1inf
3ting.
tin2ga
tin3gen
tin2gi
ting3l
ting3s
tings4p
2t1inh
3tinis
t1init
t1inka
tin2k1l
tin2kn
t1inku
t2inn
ti2nor
t1ins
3tins.
t2insä
4t3inse
tin2spa
tin2sum
t1int
3tinte.
2t3inter
ti3nu
tin2um
4t1inv
3tio
tioxi3
3tip
2tipe
ti3p4l
ti2que.
3tirad
ti1r2h
ti4ron
3t2isc
ti4schei
ti2schr
tisch3w
ti2sei
tis2el
ti3sk
2t1isl
".
Definition de_57 : text := "t1iso
ti2sp
t1isr
tiss4
ti3s2th
tis3ti
ti1s4tr
ti2s1u
t1it2a
ti2tal
3tite
ti3th
3t2iti
2ti3tu
3tiu
tium4s
tiu4s
3tiv
ti2van
ti2vel
tiver2
ti2verh
ti2verk
ti2verl
ti2v1o
ti4v3r
ti2za
ti2zir
2tj
2tk2
tklat3
tk4ne
t3kr
2t1l2
tlan2g
t2lef
tlei2bl
tlei4der
tl4er
tle2ra
t3li
tlings5
tli3sc
tlit1
t3lo
tlung4
2tm2
tmal2
tm4am
tma2st
tmen4schl
tmen4t5
tmen6tr
t3mo
tmo4des
t3mö
2t1n2
t3na
tn4an
t3ne
tnes2
t3ni
3to.
to3ar
to3at
t2oba
2to4bj
tob2l
t1obs
3tobt
to1c
t3ochs
3tocht
to2cka
to4ckent
3tod
tod1er2
to4dun
toe2
tof4fa
tof4f3ent
tof2f3er
2toffi
toff3s
3tog
2t3ohr
3toi
4toi.
toi4r
4toiz
3toj
3tok
tok4l
3to3le
tomar2b
to4mene
3tomi
4tomn
to4m1u
to5mus
to2nan
ton3au
tond2
to2n2eh
toner4ke
to4nid
to2nob
2tony
3too
3top.
to4pad
to4pak
to3pas
to2pat
top1hi
to2ple
3topo
2to4pt
3tor
t4or.
tora2g
to4rän
4torc
t1ord
t2ordi
4t3ordn
t4ore
to2rel
to2rem
to4renna
tor2fan
t1or3g
4torga
t3orient
torin2s
tor3int
to2rö
t4o4rs
4t1ort.
tor3t2a
4t1orth
4tortn
4tort2s
to4ru
to5rus
to3rü
to4rüb
to3sc
to3s2e
to3s2h
to4ska
to3s2p
4toss
3to1st
4t1osz
to4ßi
to3ßu
to2tä
3tote
to5tem
to2tho
3totr
tot3s2
3t2ou
touil2
to3un
3tow
3to1x
3toz
3töch
4töck
2t1ö2d
2töf
tö4fe
2t1ö2k
2töl.
3tön
t2ör
törs4
t1öst
3töt
2tp2
t3pf
tpf4l
tpi2n
t3pl
tp4lu
tp4rä
t3ps
2tq
t2r2
2tr.
3tra.
t4rab
3trac
tra3cha
tra3chl
2t3rad.
2trade
tra2dem
4t3radie
tra4fah
tra4far
t4rag
3trahi
4trahl
2trahm
3t4rai
3trak
4t3rake
t4rakt
3tr4al
tral3l
tra5me
3t4ran.
4trand
4trang
t3rann
5t4rans
tra3po
tra2st
4traß
2traub.
t4raue
t4rauf
2traup
3träc
2träd
3t4räg
3träne
4träng
2träuc
4tre.
2trea
t3reak
2treb
tre2b3r
2trec
t3rech
t4reck
5treck.
tre3cke
2t3red
3tref
4trefe
5treff
4trefl
4trefo
4treg
t3reh
t4rei.
3t4reib
4treic
4treif
2t3reig
2t3reih
2t3reim
4t3rein
2t3reis
tre5isch.
4treit
t3reiz
2trek
4t3rel
t4rem
t4ren.
3trend
4trendi
3trennu
t3rent
t3repa
2trepe
2t3repo
3trepp
t3repr
t4rer
5t4res.
t3rese
tre2ta
t4rete
tret3r
tre2tri
2t3rett
t4reu
3treuh
4t3rev
t4rex
4trez
3tré
2t3rh
3tri
t4rib
4tric
t4rick
t4rid2
5trieb
trie3fr
tri2en
tri4ena
tri3ent
tri2er
tri4ers
trie1s
4trig.
5trigg
tri3gl
t4rik
tri2ke.
tri2kes
5triko
4t3rind
4tring
tri3ni
4t3rinn
4tript
tr4is
tri2x
trizi1
3tro.
tro3b4
2trock.
3troe
3trog
tro2kes
trol2la
tr4om
tro4men
4tromk
4troms
3tron
tro3na
t4rop
tro3pe
3tropf
tro3sm
3trost
t1rot.
2trout
3t4roy
4t3röc
2tröh
4tröm
3tröp
3trös
4t3röss
3tröt
3trua
3trub
2t3ruc
4truf
t4rug
4truk
trum4
t3rumä
trums5
t3rund
3trunk
3t4rup
t3russ
2trut1
tru2th
4truw
trü3be
trü3bu
2t3rüc
trücker4
t4rüg
3trümm
3try1
2ts
ts3a2b
t4sachs
t2s1a2d
ts1ahn
t3s2akk
t2sall
t2salt
t4samp
t4s1amt
t2san
ts3ane
tsa2p
tsa2r
ts3are
ts3ari
t2s1a2s
tsas3t
t3satz
t2sau
tsau1c
ts2av
t2säh
ts1än
ts1äus
t4schart
t4schef
tsch2li
t4schro
t3schü
ts4cor
".
Definition de_58 : text := "t2s1e2b
tse2e
t2sef
tse2he.
t2s1eic
t3seil
t3seme
ts1eng
t3s2ens
t2s1ent
t2s1ep
t2s1er
tser2u
t4s3essen
tse2t
ts1eta
t2s1eti
t2s1ev
t2sex
t3sexi
t2s1i2d
t2s3i2k
t2sim
tsing4
t2sini
ts1ir
t3s2kal
ts2kele
tski2
t4sko
tso2
ts1off
t2s1op
ts1orc
t2s1ori
ts3ort.
t3soz
t2sö
t2spac
t2spal
ts2pare
t2spat
t2spä
t3sped
t3spei
t3spek
t2sph
t3spi
t4s3pic
t4spins
ts3ple
t2spo
t3s2pon
t3s2por
t2sprei
t2spro
t4sps
ts2pul
ts3s2
tsser2
tss4t
t1st2
t2stabe
t2staf
t4stag
ts3tak
t2stale
t4s3tanz
t4stas
t2stat.
t2s3täti
t2stea
t3stein
t4stele
ts2terb
t3s2tern
t3s2tero
t4sth
ts5the
t3stif
t3stim
t4stit
t2stoch
t4stoi
t4ston
tst4r
t3strec
t4stren
ts3treu
t3stric
t4strie
t4strun
ts2t4u
t5stub
ts4tüm
t4sty
ts1u
t2su.
5tsubi
t2sumg
t2sums
t2sumv
t2sumz
t2s3un
tswa2s
t3sy
t4sza
2tt
tt1ab
tt2ac
tt3achs
tt1ad
tt2ag
tta4g3ess
t4t1ah
tta4ke
tt2al
t4tan4a
ttank3l
t2tanm
tt2ant
t2t1ap
t4tapp
tt1art
tt3atr
tt1äh
tt1ebe
tt1eif
tt1ein
t2t1eis
tte4l1a2
tte2l3e2b
tte2len
tt2eli
tte2lin
ttel1o
ttels2t
ttel3ste
t2temu
tte4na
tten4sem
t4tentb
tten3te
t4tentf
t4tents
tten3z
t2teo
tte4r3ar
tt4ere
tt3erfo
tteri2e
tte4rik
tte2ro
tt2erö
tt4es1
tte4s3a2
tte4s3ä2
tte2so
ttest4r
tt2häu
tthä3us
tt1hi
t2t1ho
t2ti4d
t4t3igi
t2tins
tt2int
t2tiso
t3tit
t4t3la
t4tli
tt5nan
t4torg
tt3rü
ttschi4
tts1eh
tt2sen
tt2spe
tt2spr
tt2s3tät
tt2sum
tt3sz
tt3t2
tt5tri
tt1u4f
t3tü1
t4tüb
tt3z2
ttz4w
3tua
tu4ale
tu1alm
tu1alv
tu3ant
2tub2
tuba3b
3tuc
tu2chi
tu1cho
2tud
tudie4n3
3tue
tu2ere
2tuf
tuf2e
tu5fen
t3u4fer
3tuff
tu2gan
2tuh
tuh4ler
tu1ist
tu2kr
tul2i
3tum.
tum2b5l
3tume
4t3umf
2t3umg
2t1umh
2t3umk
2tuml
3t2umo
2t3umr
2t3umsat
2t1umsc
tum2si
tum2so
tum4s5tr
2t3umt
2t1umw
2t3umz
3tun.
2t1una
2t1und
tund2e
tun2en
2t3unf
3tung.
t3unga
tung4s5
tun2i
2tunif
2tu2nio
2tuniv
2tunm
3tunn
t1u2no
2t3unr
t3uns
3tuns.
4t3unt
2tunv
2t1up.
t1upg
tu2r1a2g
tu2r1an
turan4l
tu2ras
tu2rau
tu2rä
tur1c
tu2r1e2b
tu2rei
tur3eis
tu2rene
tu2r1er
tu4res
tu2re4t
tu2r3e2v
turf4
tur3g2
tu2rid
tur1in
tur4mun
3turn
tu2r3o
tur3s
tur5sa
tu2ru
3tus
tu2sa
tu2schl
tu2s1e
tu2so
tut2a
tuto3
2tü
tü3ber.
3tüch
tück2s
3tüf
3tüm
3tür.
tür1c
3türe
3türg
3tür3s
3türw
4türz
3tütc
3tüte
4tütz
2tv2
t3vo
t4vo.
tvoran2
2tw
t3wa2
twegs2
t2wist
tw4ri
2t1ya
3typ
ty2p1a
ty4ps
ty1s2
2tz
t2za2
tz1ag
tz1ap
tz3ar
tz1au
t2z1ä
t3zäh
t2z1e2c
t2z1e2d
tz1ehr
t2z1eie
t2z1eig
t4z1eis
tzei4tend
tze2m
tz1emi
tze4n1
tz2ene
tzen3s4t
tzen3ta
t2zentg
t2zentl
t2zents
tze2reb
tzer4gre
t2z1er2m
tz1erw
tz2er3z
tz3erzi
tze2s3
tz1e2t
t2z1i2d
tzi4m
tz1imi
tz1int
tz1inv
t2z3om
t2zop
tz2th
tz4tin
tzu2gu
tz1unf
t2zuni
tzwan2d3
tz3wä
tz3wi
t3zwie
tz3wu
2ua
u3a2b
u3a2c
ua2dan
uad4r
u1a2g
u1ah
ua4ka
u1al.
u1a2l1a
u1a2l1ä
u1alb
u1ald
u3aleb
u3a2lent
u3aler2
ual3erk
u3a2let
u1alf
u1alg
u1alh
u3a2lid
u1aln
ua2l1o2
u1alp
u1alr
u1als
u1alt4
ual5tr
ua2lu
u1alw
u1al3z4
u1am
u1an.
".
Definition de_59 : text := "ua3n2a4
u1ans
uant2
u3ar.
uara2b
u1ars
uar2t3an
ua3sa
uasi1
ua2th
uat2i
uati4ons.
uat2o
u3au
u1ay
u1äm
u1än
uä2s
u1äu
2ub
u2barb
ubb4l
ube2be
ube2e
u2b1ehe
u2b3eins
u2b1e2m
ube4n1a
uben3o
ub2er
u2b3erde
ubert4
u3b4es
ub1eul
ub4is
u3b4it
ub2l
ub3läu
ub3lic
ub3lu
ub4lut
u2bob
u2b1ok
u2bop
u2boz
ub5rah
u2b3rit
ub4ro
ub4rü
ub2san
ubsau4
ub4s3che
ub2s1o
ub2s3p
ubst4
ub3t2h
2uc
uc1c
u4ch.
uch1a
u1cha.
u2chan
uch1ä
u1che
uch1ec
u2ched
uch1ei
ucher3f
u3ches
u1chi
uch3im
uch1in
uch3l
uch3m
uch3n
uch1op
u2ch3r
uch2sel
uch2so
uch2sp
uch4stem
uch2tak
uch3tan
uch4t3erf
uch4t3ert
u1chu
uch3ü
uch3w
u1ci
uck3elf
u2ckem
u2ckent
u2ck3i
uck2sti
u1cl
uc4re
2ud
u3d2a
uda3d
ud4at
ud2e
ude1e
ude3i2
udein5
ude2n1
uden3e
uden3s2
udert4
udi3en
udiener4
udio3
uditi4
u3d2ob
u2don
udo1s
ud3ra
u3dru
2u1e
ueb4l
ue1ch
ue2ck
u2ed
ueen4
u2eg
u2eh
ue2ke
u2ela
ue2lek
ueli4
uel2lau
uel4lent
ue2mi
uen1
u3en.
ue4n3a2
ue2nä
u3enb
u3end
uene2
ue2neb
ue2ner
uen2gag
uenge2
uenge4m
uengene3
uen2gl
ue2ni
uenk4
ue2no
uen2zu
u2ep
ue2r3a2
ue2r1ä
uerb2
uer4baut
u3erbu
uer3d2
uere2
ue2rec
uer4ei.
u3ereinn
uerei3s2
uer3ela
u3eremp
u3e2r3ent
ue3r2erb
u3ererf
ue2rer2g
uerer2h
uerer2k
uerer4m
ue2rers
uerer4sa
uer3esk
ue2re4t
u3erex
uerg2
uer3ga
uer2geb
ue2ri2d
ue2r1i4m
uerin3s
u3erin2t
u3erl.
u3ern
uer4nan
uer2nar
uer2ne
uern3s2t
ue2r3o4
uer2ö
uerrü2
uers4p
uerst4
uer3stei
u3ersti
uer3t2
u3eruh
u3erum
u3erunf
u3erunt
u3erur
uer2wec
uer3z2
ue2ta
ue2tek
ue2tik
uety2
u2ev
ue2x1
u2f
u3fa
uf1ab
ufa2ck
ufall2
ufa2n
uf3ane
uf3a2r
uf1aß
ufa2t
uf1au
u3fä
u4f1än
uf1är
uf1äs
u4f1ä2ß
u3fe
u4f1ei
ufel4s3a
u4f1em
4ufen
u4fent
uf2ere
u4ferf
u4f1erh
ufer4lau
u4ferle
u4ferne
u4f1et
u4fex
2uff
uf3f2e
uff4l
uf2fro
u3fi
u4f1id
u4fim
u4f1ins
uf3l
u4fläs
uf4lü
uf5lüd
uf5lüm
u3fo
u4fob
u4fof
u4fop
ufo2r
uf1ori
u3fö
uf3r
u4fru
uf3sä
uf2spo
uf2stab
2uft
ufta2b
uft1eb
uft3erd
uft3er2g
uf5tri
uft3s4
u3fu
u4fum
u3fü
2ug
ug2abe
u2gabte
ug1a2d
ug1ak
u2gana
u2ganb
u2gani
u2g1ans
u2gant
ug1ap
u2g1ar
uga4s
ug1au
ug3d2
u3ge.
u2g1ec
ug4eg
ug1e2i
u2geig
ug2eil
u2g3ein
uge2lob
ug1emi
ugene2
ugen3s2
u2g1erf
u2g1erk
u2g1erl
u2gerr
u2gerv
uges4
u3ges.
u2g1esk
ug2et
ugge4st
ug2gl
ug4gt
ug3hu
u2g1i2d
u2gim
ug1in
u2gins
u2g1l
u4glä
u4gleitb
u4gleitu
u4glic
u4glis
ug3liz
u4g3lo
u4glu
u2g3n
ugo3
u2go4b
ug3oc
u3gon
ugo4p
u2g1o4r
u2gö
u2g3ram
u2g3rä
u2greg
u2g3reis
u2g3res
u2g3rie
ug3ro
u2grou
ug3rüs
ug4spe
ugs4por
ug4spr
ug4spu
ugst2
ug3sta
ug3stä
ug3str
ug3stu
ug4stur
ug3s4tü
u2gum
ugu3te
u2gü
u1h
2u3h2e
uhe3a2
uhe1e2
uhe1s
2uhi
2uhl
uh1la
uh2lar
uh1lä
uh2l1ei
uh2l3ent
uhl3erb
uh2li
uhl2ö
2uhm
uhme2
uh1or
uhr1a
uhrei2s
uh2r3er3
2uh3ri
uh4r1in
uh4r3o
uh2ru
uh4rü
uhs4t
uh3t2
u2hu
2uhü
uh3w
2ui
ui2a
ui1ch
ui2che
ui4cker
u2idi
ui2du
u1ie
ui1em
u3ig
u4ige
".
Definition de_60 : text := "uil2les
u1im
u3in.
u3isch.
u3ischs
uis2e
uisi4n
uis3t
uit3s
uji3
uk2a
uk1äh
u3käu
uk2e
uke2n1
uk2l
ukle1
uk4na
uk4ne
uk4nu
u2k1ob
uko4m1
ukom3a
uk2ö
uk4re
uk2ta
uk2t1el
uk4tent
uk2t1er
uk2tin
uk4t3o2ri
uk4t3r
uk2tum
uk4tü
uku2s
uk2ü
u1l
ul1am
ulan2e
ul2ar
ula2s
ul1äm
ulb4l
ul4dan
ul2dar
ul2dr
ul3dra
uld2se
2ule
u2l1el
ul1emb
ule4n1
ul1er2h
ul1er2r
ule2t
ul1eta
2ul3f
2uli
ul1id
uli2k
ulin1a
ul1ins
uli3p
ul3ka
ul2kn
ull1au
ul3len
ul3l2i
ul2lo
ull3s2
ulm2e
ulni2
ulo2i
u2lop
u2l1or
ul2ö
ulp1h
ul2pha
ul2sa
ul4sam
ul2s1ec
ul2sei
ul2ser
uls2th
ul2sum
4ult2a
ul3tan
ult3ar
ul2tau
ulter2m
ul4tri
ult3s
u2lü
ul2vr
ul3z2e
ulz4w
2uma.
u2maa3
u2mab
u2m1ad
u2m1a4k
u2m1all
um1ang
u2m1ant
um1anz
u2m1ap
um1ar
u2marc
u2marm
u2mart
u2matl
u2matm
um1aus
u2maut
um4ay
u2m1äh
1umd2
u2m1e2b
u2m1e2ck
u2m1ef
u2m1ein
ume2n1e
um3engel
u3mer.
umer2a
u2m1erf
um1erg
u3merk
u2m1erl
um1erw
umes2t
1umf
4umfi
1umg
um1ind
um1inh
um1ir
umi2t
um1ite
1umk
1uml
2umme
um2mei
um3mi
um3n
um1ob
u3mol
um3ot
ump2fa
ump2fin
um5pit
1umr
um4sam
um4s3an
1umsat
um4sd
um2s1er
1umset
um4sf
um4sg
um2sim
um4sj
um4sk
um4sm
um2s3pe
2umspf
um4ss
um2su
um4sv
um4sw
um3t2
um4ts
u2mum
u2m1u2r
1umz
un1
2un.
2una.
1unab
un2a3br
un2ag
un2al
u3n2am
u2n3an
u2nap
u2narb
2un2a1s4
un3at
un2är
4und.
un2da
unda2b
un2dän
1undd
2unde
un3de.
underer4
und3erf
und3erö
underten4
under6tend
und3erz
un2dex
1undf
2undg
un2did
un2dim
1undn
undo2b
un2dop
4un2d3r
und3s
4unds.
2undsc
unds2p
un2d1um
undü4
1undv
1un4dz
une2b
une2d
un2ei.
un3eid
un3ein
un3eis
un2emi
une4n1
un2ens
unen2t
un2enz
u3ner.
un3erz.
un2es4
unf2
un3fa
un2gab
un2gam
ungar4
un2gat
1ungeh
3ungena
unger2e
1unget
1ungew
ung5ha
1ungl
ung3lat
un2glu
un2go
un2gr
ung3ri
un4gs3
ung4sa
ungs5tr
u3nic
un2id
un3ide
4unie
3u2nif
uni3k4
un2im
1unio
un2ir
un3iro
un3isl
u3n2it
1u2niv
2unk
un2k1a
4unke
un3ker
un2k1es
un2ket
un2kne
un2ko4p
un2kro
unk3s2
unk4tit
unk2tr
unlö2
1unm
unna2
un4n1ad
unn2e2
unne4n
u2nob
uno4r
un2os
1unr
uns2
2uns.
unsch3el
un3se
1un3si
un3sk
un4ski
un3s4p
un4sr
unsta2g
unste2c
uns4t1r
4unsy
4unsz
1unt
un3ta
un3te
unte2ri
3unterr
4unti
un3tr
unt3s
2untu
3unty
2u2nu
u3nuc
unu4s
u1nü
1unv
unvol2
unvoll3
1unw
4unwä
3unwe
u2ny
2unz
un3z2a
unz2e
2uo
u1o2b
u3of
u1op
u1or
u3or.
uo2r3a
uor3c
u3oret
uo2ris
u3ors
uor5tr
uos2
u1os.
uote2
u1ox
u1ö2d
u1ök
u2p
u3pa
u3pä
3upd
u3pe2
uper1
uperer4
u3pé
up2fa
upfe2
u3p4fl
u3p2fu
u3ph
u3pi
up4id
u3pl
up4lu
u3po
2upp
up2pl
u3pr
upra3
up4t3a2
upten1
up4tene
upt3erf
upt3erg
upt3erk
upt3ers
upti2m
upt3in
up4t1o
up4tr
u3pu
u3py
up4yb
2ur.
u1ra
u2rab
u3raba
ura2be
u2r1aka
u2r1akt
u2ral2t
u2r1am
ura4na
u3r2and
uran4fän
ur1ang
uran2ge
ur2anh
ur2anr
uran3s
ur2anti
ur1anz
".
Definition de_61 : text := "ur3ap
u2r3ar
ura4ri
u3rasc
ur1asp
ura2str
ur4ate
u2r3att
ur1au
2u1rä
ur1äl
ur1ä4m
ur1än
ur3b2a
2urc
urch1
urch3s
urcht3e
urd2
ur3da
ur3di
ure1e
ur1eff
ur1ehr
ur1eig
u2rele
ure2n
ure4na
u2ren2se
u2rentn
u2r1ep
urer3h
urer3k
ur2ert
u2rerw
ur1eta
ure3u
2urf
urf3l
ur2fli
ur2fro
urf2spr
urf3t
ur2gei
ur4gense
urg3inn
urg1l
ur2gla
ur2gri
urgros2
urg1s4
uri2c
ur1ide
uri3en
u2r1ind
urin2se
urin4sek
u2ri2so
ur3ku
ur3l
ur4ls
ur2m1ar
ur2matt
ur2m1au
urm2ei
ur2mern
urme2t
ur2mum
ur2mun
ur3n2e
urn2o
2u1ro
urob2l
ur1off
uroh2
uro1s4
2u1rö
ur3p
2urr
ur3re
ur2rh
3ursac
ur2san
ur4s3au4
ur2s3er
urs3int
ur2spa
urt2
2urta
ur2tai
urt3ein
ur2tro
urts2c
2urtu
uruf4
uru3fl
ur1umh
ur1ums
urü2
ur2z1a2
ur2zä
ur2z1ec
ur2zep
ur2z1op
urzt4
ur2z3w
2us
us3a2b
usa2gi
usal3t
u4s1amb
u4samt
u2sang
us4ann
usa2s3
us1ast
u2säh
u2s1äs
u2schab
u2schak
u2schar
u3schart
u2schef
usch3eic
u4schen4e
u3schi
usch3mü
usch3wer
u3se.
u3s2e3b
u2s1ec
use1e
use2ei
u2s1ei
u3seid
u2sen2se
usen4te.
u2sentl
use2rec
u2s1erl
u2serp
us1erw
u2s1ese
u2sex
u3si.
u2sid
usi3er.
usi3ers.
u3sik
usi2kat
us1inn
u4ske
us3kl
u4sko
u4skö
u4sku
us3oc
us1oh
u3sol
u2sop
us1orc
us1ou
u3sov
u2spac
us2par
us3part
u2spas
us3pe
u3s4pec
u3spek
u2sph
us3pic
u3spit
u3s4piz
u2spo
us2por
u2spu
usrich5
us2s1ad
us2s1eb
usse4g
usse4n
us2sep
uss3erf
us2sesp
us2sez
us2sof
us2sum
us4sw
us5taa
u1stad
u1stal
us3tau
us4tein
u1stel
ust3erl
us3tin
us3tr
us4tras
u2suf
u2s1umb
u2sumd
u2sumg
u2sumz
3usus
u2sü
2uß
u2ß1u
2ut
u3taf
u2t1alt
u4t1a4m
ut2ans
u2t1ap
ut1ar
uta4s
u2taut
ut1äh
u2t1är
ut3c
ut1e2d
u3teh
ut1ei.
ut1eie
ut1ein
u3tek
ut1ela
u3tem
ute2n1
uten2a
u2tent
u4tentf
ute2ra4
ute3ras
ute4ring
uter3k
ute2ros
ut2es
ut2et
ut2ev
u2t1ex
utfi2
ut3hal
ut3hei
ut1hel
u2t1hi
u2t1ho
u2thu
u2t1id
u4tigel
uti2vi
utli4n
uto3c
uto3p
u2tops
utor2a
u4tord
uto2re
uto2rin
uto3s4
4utou
u2töl
ut3rea
u2trou
ut3rü
utsau2
ut2säu
ut2scha
ut3sche
ut2schl
ut2schm
ut2scho
ut2schö
ut3ser
u4t3sk
uts2p
ut3sta
utt4er
ut3t2l
utts2
utu4b
u2tum
utu2n
u2t1une
utu4re
utu3ro
utu3ru
u3tü
utz3a
ut2zeh
utz3eng
utz2er
utz4erg
ut2zet
ut2z1in
ut2zis
ut2zö
ut2z3w
2u1u2
uu4fe
uum1
uu4ma4
uume2
u1ü
uü4be
uv2
u2ve.
uve3rä
uv4re
2u1x
ux2e
ux2o
ux3oe
ux3t2
u1ya
2uz
uze2
u2z1ec
u2z1ene
uz2er
uzo4f
uz3ot
uz3we
uz3z2
uz4zb
1ü2b
üb1ä
2übc
2übd
üb2e2
übe3c
übe3le
ü3bem
ü3ben
übe4na
übe3ne
über1
ü3bes
ü3bi
üb3l
üb3r
üb5rig
üb2s3t
2üc
ü1che
üch3l
üch2s1c
ücht4e
ü3cke4n1
ück1er
ück3eri
ücker4ke
ücker2l
ü2ckers
ü2ckin
ü2ckum
üd3a2
üda4m
üda4s
üde2c
üde2l
ü3den.
üden2g
ü3d2ens
üdf6lan
üd1o2
üdo4s4
ü2d3r
üd3s2
üdsa1c
üdsau2
üd3t2
üdu2
üe2
üeb3
ü1ei
2üf
ü2f1a
ü2f1ä
ü2f1ei
ü2fent
üfer2
ü2f1erg
üf2fl
ü2f1i
ü2f3l
ü2fo
ü2fum
üg2e
üge2l1a2
üge2lä
üge4lec
üge4lei4s
üge2lo
ügen3s
ü2g3l
ü2gn
üg3s2
üg4s3t
üh3a2
".
Definition de_62 : text := "ü1he
ü2h1ei
ü2h3e2m
ü3hem.
ü2h1eng
ü2h1ent
ü2h1erf
ü2h1er2k
ü2h1er2z
ü2hex
üh1i2
ühi4r
ühla2
ühl1au
üh1lä
üh2lel
ühlen1
üh2lene
ühl2er
üh2lö
ühl2se
ühl4sk
ühl2sta
ühl2sti
üh3mo
üh3ne
ühn2s
üh1o
üho4f
üh3r2e
ühr3ei.
ühre2n1
ühren3s4
üh1ro
ühr3ta
üh1s
ühs4p
üh3t
üht2a
üht4r
ü1hu
üh3w
ük2
ül1a
ül2c
ü3l2e
ü4l3ef
ül3eim
üle2r3a2
ül2l1a2
ül2l1ei
üll2erg
üller2z
ül2lid
ül2lo
ül2lö
ülls2
ü2lö
ü1lu
ü2m
ü3me
ü4ment
ü4m1e2p
üme2ra
ü3mi
ü4m1id
ü4m1in
üm1u
2ün
ü2n3a2
ün2da
ün3di
ün2dr
ünd3s
ü2n1erd
ünf1
ünf3li
ün2g3l
ün2s
ün3sc
ün4sd
ün3se
ün3sp
ün3sta
ünste2r3
ün3str
ün2za
ün2z1i
ünzu2
ün2zun
ün2zw
ü2p
ü3pe
üpf3l
ü3pi
ü3pl
üp2pl
ü3pu
2ür
ür1a
ü2r1ei
ü2r1e2l
ür2f1er2
ür2fl
ür2fr
ür2g3eng
ürge2ra
ürk2e
ü3r2o3
üro5fe
ürom2
üro5ma
üror2
ürr2
ür2r3h
ür2s
ür3sc
ür3se
ür3si
ür3sp
ür3sta
ürte2l3
ürt2h
ürz2a
ür2z1in
ür2zö
ür2z3w
üs2a
ü3schi
ü2schl
ü3s2e
üse1e2
üse3l2
üse4n
üse3r4
üse1s
üs2p
üs4s3a
üs4sä
üs2s1c
üs4s3o
üs2st
üst3a
üste2n
üs4tl
2üß
ü3ße
ü3ßi
2üt
ü2t1al
üte3m
üte4n
üten3s2
ütent4
üten3z2
üte2ra
üte2re
üter3ei
üterich4
üter3n
ü2t1h
ü2t3r
üt2se
üt2st
ütte4n
üt2tr
üt3zen
üt2zw
1v
3va.
2v1ab
vab4r
va1c
va3f
va3g2a
va2la
2valu
v2an.
2vanb
v2ans
2varb
v1arm
vas2
2v1ass
va1st
va2t1a4
va4tag
va4tan
va2tei
va4t3eng
va4tess
va2t3h
va4tid
vati3k2
va4tim
va4t1in
vati4ons.
va4tord
va4t3r
vat3s2
va2t1u
2v1au
2vb
2v1c
2vd2
ve2
ve3ak
2ve3al
ve3an
ve3ar
veau3
ve3b
veb4r
ve3d
ve3e2
ve3f
ve4ff
ve3g
ve3h2
2veig
v2eil
2vein
veit2
veits3
ve3la
2velan
vel2ar
ve4l1au
v1ele
ve3lei
ve3l2i
ve3lo
vel2o3p
ve3ma
ve3me
2v1emp
2vemu
ve3nal
ve4nas
v1endu
ve3ne
venen2d
2venerg
ve3ni
ve4nin
ve3nö
ven6t3ag
vent4sk
ven2za
2veo
ve3of
ve3pa
ve4pi
ver1
ver3a
ve3rad
2veral
ve3rand
ve3rane
vera4s
ver4bart
ver3b2l
ver3d4
vere2
vere4i
verein4s5t
ve4rf4
ver3g4
ve3ri
ve4rin
ver3k
vern2
ver2sep
ver3sta
vert4
ver3te
ver3u4
ve3rus
ve3sa
2ve3sc
2ve3se
ves3p
ves3ti
ve3t
vete1
vete3r
ve4tl
ve4ts
ve4tt
2veü
ve3v
ve3w
ve3z
2vf2
vf4gh
2vg
2v1h
vi1an
vi3ar
vi4a3t
vi2c
vi3de
vid3s2t
3vie
vie2h1a
vi2el
viela2
viele2
vi2er
vie2rec
vie2w1
vig2
2vii
v2il
vi2l1a
vi2lä
vi4l1e2h
vi2lei
viler2
vi2lers
vi2l1in
vi2ma2
vi4na
vin3d
ving3
vings4
v1ins
vi3sa
vise4
vi3s2i
vi3s2o
vi2sp
vis2u
viv2
viz2
vize1
2vk
2v1l2
v3le
v2lie
2vm
vm2e
vmwa4
2v1n2
2v1ob
vo2be
vob4l
voge2l3
vo2gu
vo2i
vol2a
vol4l1a
vollen4
vol4lend
vol4ler4t
vol2li
2v1op
vo2pe
vo2r1
vo4r3a
voran6schl
vor3g
vo3ri
vo4rie
vo5rig
vorm2
vormen2
vor3o
vor3t4
vo4ru
vo5ruf
vot2a
vö2c
2vp2
v3pf
2vq
vr2
v1ra
v2ree
v4ret
3v2ri
2vs
vs2c
vs2e
vs2p
v1sta
v1steu
v1str
v3s2z
2vt
vue3
vu2enu
vu2et
2vumf
2vumg
2vumk
v1ü
2vv
2vw
2vz
".
Definition de_63 : text := "1w
w2a
3waa
wab2bl
wa3che
wach4stub
wach2t4r
3wack
waffe2
waffel3
3wag
wa3ge
wa5ge4n
wa2g3n
wag5ne
wa3go
wag4r
3wah
wahl3ent
wah4ler
wah2l1i
wa4ig
3wal
wala3c
wa2lar
4walb
wal4d3a
wal2din
wal2dr
wa2les
wa3li
wa5lis
wal2m1
wals2
wal4t1a
wal4terl
wal4to
wal2tur
wa3na
wan2d1a2
wandels4
wan2dr
w3anf
wan3g2e
wang4s3
3wann
wan4z3en4d
wan2z3er
wa2p
3war2e
ware1i
wa3ren
3warn
war4ni
war2th
wart2st
war2za
3was
wa3sa
was2c
wa2scha
wa3sche
wa4schei
wa2sch3l
wa2schw
wa3se
wa3sh
was3s2
wass4e2
wa3su
wäch3s2e
3wäh
3wäl
wäm3
4wäng
3wäs
wäs2c
wäss4e
2w1äu
2wb2
wbu2
2w1c
2wd
we2a
we2b1a
webe1i
we2b3l
we2bo
we2b3r
webs2c
we3cke.
we3cken.
we3ckes
wee2
weed3
wef2e
we2fl
3weg
we2g1a
we4g1ei
weg3ersc
we4g3l
we4gn
we2g1o4
we4g3r
weg5re
weg3s
wegs2a
wegs4t
3weh
weh2r3er2
wei2bl
weib4r
4weie
weifel4d
wei2gr
wei2ha
wei3k4
3weil
wei3le
weinsau4
wei3sc
weisch4
weis2sp
wei2t1r
wei5ze
wel5le4
wel4schl
wel4schr
wel2t1
wel4t3a2
welte4
wel4t3en4d
wel4th
welt3i
wel4to
welt3r
wel6tri
wen3a2
wendes2
wen2gl
we3n2i
wen2kau
wen2kla
wen2k3ri
we2r3a2
wer5be
werbe3i
wer2bl
werb2s
wer3d2
3werdens
3werdu
werer2
wer2fl
wer2ga
wer2gel
wer2g3o
wer2gr
werin2
we3rins
we2ri4o
3werk.
wer4k1a
3werke
wer2ki
wer2k3l
wer2kn
wer2k3o
wer2k3re
wer2ku
we2rö
wer2s
wer3sc
wer3sp
wer2t1a
wer2tä
wer2tei
wert3eig
wer4t3erm
wer2th
wer2tin
wer4t1o2
wer2tre
wer6t3ri
wer2tum
3wese
we2s3p
we4st
wes4t1a
weste2
west3ei
wes4ten4d
wes2tex
wes2ti
wes4t1o4
wes4t3r
wes2tu
3wet
4wets
wett3s
2w3ey
2wf
2wg
whi2
whi4t
w3ho
w2i
wicht4s
wi1cka
3wid
wi2e
4wieb
3wied
wie3l
wie3n2e
wik2
3wild
wim2ma
wim4m3u
win2a
win2d3e2c
win3del
win4derz
3win2d3r
4wing
win2g3r
win2kl
winner2
win4n5ersc
win2no
win3s
wint2
3wi2r
wi4re3
wi3s2e
wi5sen
wi2s2p
3wiss
wiss4z
wi3th
3witz.
wit2zer
3witzl
wiz2
w2j
2wk
2w1l
2wm
2wn
wns2a
wn3sh
3wo1c
wo2cha
woch2e4
woh2lei
woh4na
3wolf
wol3fe
wolf2s3
wol2la
wol2ler
wor3a
wor3d
wo2r3i
wort1a
wor2tel
wor4terh
wor4t3r
wort3s
wo4r3u
wor3ü
3wos
wot2
3wöc
wöl2fo
wört2h
2wp
w2r
w3re
w3ro
2w1s
w3s2h
w3s2k
w4sk.
ws2t
w2s1u
2wt
wti2
w2u
3wuc
wuch2sc
wuch2st
w3uf
wu4fe
wul2
wul3se
wund4e
wung3r
wungs4
wun2s
wunsch3l
4wur.
wur2fa
wurf1o
wur2fr
wur2s
3wurst
wus2
wus3te
3wu2t1
wu4te
3wüh
wül2
wün3
3würf
3würst
2ww
2wz
x1a
1xa.
2xa2b
1x2ac
1x2ad
1xae
xa3fl
1x2a3g2
2xal
xal2l
x3am
xa5met
xa4mi
x2an.
1xane
1xani
x2an3t2
xanti3
x2anz
xa2r
1x2as
xa2z
2xb
xb4ri
xcal2
x1ce
x1ch
x1cl
2xd
xda2
xda4t
1xe
3xe.
2x1e2g
xe4ge
2xek
xe2l
x1ele
xe3lei
x1em
3x2em.
2xemp
x2ems
x2en
3xen.
xen3s2
3x2er.
x2ere
2x1erl
xer2la
x2ern
x2ers.
xe4rx
3xes
2x1eu
2x1ex
2xf
2xg
2x1h
xi1c
xich2
xi2dan
xide2
xi2dei
xi2d3em
x1i2do
3x2i2e
xie3l
xi4en
xi3g
3xi3k
xik4l
xi2ler
xili3a
xi2lo
xi2l1u
1xim2
xin3s2
x2is
xi2sa
xi2s1e
".
Definition de_64 : text := "xiso2
xi2sp
xis3s4
xis3t
xis4tä
xi2su
3xit
xi3te
x1i4tu
xive4
2xk2
xkal2
2x2l2
x3lä
x3le
2xm
2x1n
2xoe
x3o2l
x1o2r
3xos2
2x1ö2
2xp
xpor4ter4
xpor2t3r
x1r
2x1s2
x3sh
x3sk
x3st
x3sz
2xt
xt1a
xta2b3
x3tan
xt2ant
x3tas
x2t1ä
x3tät
xtblo4
xtblock3
x2t1e2d
xt1ein
x2t1el
x4tent
x2t1er2f
x2t1ev
xtfi2
x2t1h
x2t1id
xti2la
xtil2lu
x2t1o2
x4to4r
xtra3b4
x2t3ran
x2trau
xt3rec
xt3s2
x2t1um
x2t1un
1xu
xu1a
xu2n
2xunt
xu2s3
xusa2
xuss2
2x2v
x3ve
x3vo
2xw
1xy.
2yab
1ya2c
y2ach
y2ag
ya1h
y1al.
ya4mo
y1an.
y2ana
yan2g
y1ank
y2aq
y1ar
y2a3ra
y2are
yas2
yas3t
y1ät
ybe2r
y1c
y2chi
y3chis
ych3n
ydi3e
ydri2
ydrid3
yd4ro3
y1e
y2ec
ye2d
y2ef
y2el2
yen4n
yera2
y2ere
yer2n1
y2es
y4es.
y4esp
ye2th
yf2
ygie3
yg2l
y1h
y3ho
yhr2
2y1i2
yi4sc
yk2
yke3n
yk4la
yk4ni
yk4no
yk3s
yk3t
yl1a
yla2c
yl2ag
y1l2ak
yla4l
y2la4m
yla2n
yl3ane
y1lant
yl2ante
yl2anti
yl2as
y1lä
yl3c
yle2
y2le.
yl1em
y2l1es
y2l1e4t
yli4n
yloid3
yloni1
yl2op
yl1ora
yl3s2
yl5tri
y2m
y3m2a
ym4an
ym4ar
ym4as
y3mä
y3me
ym4el
y3mi
y3mo
ymp2
ym2pha
ympi3e
ymp4t
y3mu
ynä2r
yn2eu
ynk2
y2n1o2
yno4t
yn2oz
yn3t2
yob2
y2od
yoga3
yom2
yon2a
y2onn
y1ont
yo2pe
yo1s
y2ost
y3ot.
y1ou
2yp
ypa2b3
ypa2n
yp2e2
ype4r3o2
y2p1i2d
y2p1in
y2plo
y3po3
yp3th
ypu2
y2p1um
y1r
yr2e
y3ri
yri1e
yri3en
y3ro
yros3t
yrr2
2ys
ys2an
ysch4
ys2e1
ysein2
ys3l
ysme3
ys2po
ys3pr
ys3t2e
ys5tem
yst2h
ys2the
y1sto
ys4tol
ysto4le
ys3tr
ys4tra
y4stro
y3s4ty
ysu2
ys1ur
y3s2z
y4tes
yt2h
ythe1
ythi3e
y3to1
ytos2
y2t3r
y1u2r
yur2e3
yvet4
yvon4
y1y
yz2
yze3r2i
1z
2z1a2b
zab3l
za1c
2z1ach
zach2s
2z1a2d
2z1af
za3gr
3z2ah
zah3len
zah4ner2
z1ak
4z3akk
2z1al
4z3alb
4z3ald
3zali
2z1am
za4me
z1a2n
z2an.
2za4n4a
2zanb
za3ne
2zanf
2zangs
2zanh
z2ank
zan2ka
2zanl
2zanp
2zanr
zanti1
2zanw
za4pf
z1a2q
z1ar
3zar.
2zarb
za3re
2zarm
3z2aro
zar2t1r
2z1as
zas4b
za4sc
zast4
z3at
zat2e
za2to
3zaub
2z1au4f
2z3aug
3zaun
z3aur
2z1aut
zä2
2z1äc
z2äh
zä3hi
3zähn
2z1äm
z1än
z1är
2z1äus
2zäuß
2zb2
zbah2
zber2e
z3bo
zb4ri
z3bü
zbü3b
zbübe3
2z1c
z3ca
z3ch
2zd2
z3da
zdan2
zdä1
zdi1st
z3dü
3ze.
2zea
ze2ana
2z1e2ben
ze1c
2z1e2cho
ze1e2
2z1eff
z1e2ga
zehe4
zehen1
zeh2l
zeh4n1a
zeh4n3en
ze3ho
zei3f4
zeik4
zeil2
zei3la
zeile4
2z1ein
ze3in.
z2e1ind
zei4ne
4z3einh
ze3inse
ze2i1s4
zei3sk
3zeit
zei2t1a
zeit3end
zei2t3er
zei4to
zei2tr
zeit3ri
zek4l
ze2l1a
zela2d
zel3am
zel3a2n
ze2l1ä
zel3d4
4ze2lek
4zelem
ze2len
ze2l1er
ze2l1in
2z1e2lit
zel3la
zel4lab
zel4l3ac
zel4lar
zel4lein
zel4ler4t
zeller4z
zell3s2
zelm4
ze2l1o
zels2
zel3sa
zel3sz
zel2ti
zelu4
zembe2
zem4e
2z1emp
3zen.
ze4n1ac
ze4nas
zen3au
ze2nä
".
Definition de_65 : text := "ze3n2em
zenen1
3zenerk
2zenge.
z4engl
2zengp
2zeni
ze2nid
zenk2
zen3n
ze2n3o
ze4not
2zen2sem
zen2ser
zens2p
z2entn
z1ents
2zentw
2zentz
zen2z3er
zen2zw
zeo4r
3z2er.
zer3a
ze2rad
ze1ral
ze2rat
z2ere
ze5rek
zer2em
z2erfe
z3erfül
2z1ergä
z3ergeb
5z4erges
z4ergl
zer2gon
4z1ergu
3z2erhe
2z1er3hö
zerin2t
z2erko
3zerl.
zer2lau
zer2le.
2zerleb
zer2len
2zerlö
3z2ern
zer2nan
zer2n3e2b
zer4nei
2z1erö
zer2öf
ze1rös
2z1erq
3zerr
4z3erreg
z2ers.
z1ersa
zerta2
zer4t3ag
zert2an
zer4teng
zer2ter
zer2tin
zer2to
z3ertrag
zer4trau
z1erwe
z1erz
zer2ze
3z2es.
ze2sä
ze3sch
zes1e
zes3p
ze4s5po
zes2sa
zessen2
zes4s3end
zes4sent
zes2ser
zes2sp
zes2st
zes2sum
ze1sta
ze3stau
ze1str
ze3stra
z2et.
2zeta
2ze2th
ze2tr
2zetts
zeu2gem
zeu2g3r
2z1eul
ze1ur
2z1e2x1
2zf
zf4at
z3fe
zfeue2
zf4la
zf4le
zf4re
zf4rü
2zg2
zger2a
zger4s3
z3gn
zg4nu
2z1h2
zhau2t1
zhir3
zi3alo
zi2ar
zich2o
zi2dei
ziele2
zie2leb
zie2l1i
zi3en
zien3s
zi1erh
zi1es
zig4s
2z3ik
zi2ko
zil2e
4zimp
zim4t3
2z1ind
zin2e
zin3ei
2z1inf
z1inh
zi4n1in
2z1inj
zin4na
zin4o
zin2sa
zin2ser
zin4sk
2zinsuf
2zint
zi2o3
zirk2
zirk4s
z1iso
zi2sp
zisse4
zi3s2z
zi3th
zithe2
zi4t1o2
zit2u
ziv2
2zj
2zk2
zk4ne
z3ky
2z1l2
zlei3ti
zle1s
z3ly
2zm2
z3ma
zme2e
2z1n2
z3na
z3ne
z3oas
2z1ob
2z1of
zo2gl
zog4s3
2z1oh
zol2la
zoller2
zol4lert
zon3au
zon3s4
zon2t3er
zo2o
2zo2pe
2z1o2r
zo3re
3z2orn
zor4ne
2z1osz
2z1ou
zo2w
2z1o2z
2zöf
zö4fe
2z1ök
z1öl
2zöl.
3z2öll
2zöls
2zp2
z3pf
z3pl
zp4lu
2zq
2z1r2
z3re
zreb3
zrebs2
z3ru
2z1s2
z3sa
zsau2
zse1e
z3sh
z3si
z3sk
zspor2
zst2
z4st.
z3ste
zs4to
z3sz
2zt
zta2n
zt3ane
z2t1au
z4tehe
ztein3
zt3eins
zt2el
zte3ma
z4t1ent
z4t1erz
zte3str
zt2et
zt1he
z3them
z3t2her
zt1hi
zt3ho
z3thr
z3thy
z3ti
zt3rec
zt3ric
zt3s2
z3tü
zu3a
zu1ä
zub4l
3zu1c
zuch2e
zucht3
zu3cke
zudi4
zud4r
zu2el
zu3e2r1
zue2t
zu3f2
zu5fei
zuf4l
zuf4r
zug2em
zu2gent
zug3g
zug2i
zu3gl
zu4gla
zu4glö
zu2go
2z1uhr
zu3hu
zu1i2
zu3k
zu3l2
2z1um.
zum2a
2z1umb
zumen2
2zumf
2zumg
2z1umh
zum2i
2zumk
2zuml
2zumr
2z1ums
zum2u
2zunab
zu3n2e
2z1unem
zunf4
zung4
2zunget
2zungl
z1uni
2zu2nio
2zuniv
2zunr
2z1uns
2zunt
zuo2
zup2fi
zu3pfr
zu3r2a
2z1urk
2z1url
2z1urn
2z1urs
2z1urt
zu3ru
zu3s2
zusch4
zus4p
zus4t
zu3t2
zut4r
zu5tri
zut4u
zu4t3z
zuz4w
2züb
zü4be
3züc
zür1c
2zv
z2w2
z3wac
2zwag
2zwah
z4wang
z3war
2zwa2s
2zwäc
2zwär
2zwäs
z3wech
z4weck
2z3wed
2zweg
2zweh
z4weig
2zweil
zweiter4
2z3wel
2z3wen
2z3wer
z4werg
2z3wes
z4wic
zwi4e
3zwing
2zwirt
z4wisc
2zwiss
z4wit
2z3wo
z3wör
z3wur
2z3wü
zy2le
2zz
z3z2a
zzab4
zz4at
z3zer
z3zi
z4z1id
zz1in
zzi1s4
z3zo
z4zor
zz2ö
z3zu
zzug4s
}
\endinput
".
Definition de_file : list Z := flat_map textBytes [de_0; de_1; de_2; de_3; de_4; de_5; de_6; de_7; de_8; de_9; de_10; de_11; de_12; de_13; de_14; de_15; de_16; de_17; de_18; de_19; de_20; de_21; de_22; de_23; de_24; de_25; de_26; de_27; de_28; de_29; de_30; de_31; de_32; de_33; de_34; de_35; de_36; de_37; de_38; de_39; de_40; de_41; de_42; de_43; de_44; de_45; de_46; de_47; de_48; de_49; de_50; de_51; de_52; de_53; de_54; de_55; de_56; de_57; de_58; de_59; de_60; de_61; de_62; de_63; de_64; de_65].
