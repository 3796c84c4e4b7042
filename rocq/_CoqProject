-Q theories Verif
theories/NpModel.v
theories/NpProofs.v
theories/IndexOpsModel.v
theories/IndexOpsSpec.v
theories/IndexOpsProofs.v
theories/IndexOpsProps.v
theories/ObserversModel.v
theories/ObserversSpec.v
theories/ObserversProofs.v
theories/ObserversProps.v
theories/CachingModel.v
theories/CachingSpec.v
theories/CachingKeys.v
theories/CachingProofs.v
theories/CachingProofs2.v
theories/CachingFinal.v
theories/CachingEx.v
theories/CachingProps.v
theories/TransformModel.v
theories/TransformSpec.v
theories/TransformProofs.v
theories/TransformProofs2.v
theories/TransformProps.v
theories/ScgModel.v
theories/ScgSpec.v
theories/ScgProofs.v
theories/ScgTrace.v
theories/ScgEx.v
theories/ScgProps.v
theories/PzModel.v
theories/CopyModel.v
theories/PzSpec.v
theories/PzTree.v
theories/PzStruct.v
theories/PzLink.v
theories/PzWalk.v
theories/PzMem.v
theories/PzIo.v
theories/PzInv.v
theories/PzConn.v
theories/PzFix.v
theories/PzLinkMem.v
theories/PzPres.v
theories/PzUnlink.v
theories/PzTraverse.v
theories/PzNotify.v
theories/PzNew.v
theories/PzCmd.v
theories/PzInit.v
theories/PzCons.v
theories/PzVal.v
theories/PzOpt.v
theories/PzRandom.v
theories/PzGet.v
theories/CopySpec.v
theories/CopyTree.v
theories/CopyDeep.v
theories/CopyJoin.v
theories/CopyConn.v
theories/CopyCall.v
theories/PzHist.v
theories/PzKeep.v
theories/PzOrder.v
theories/PzGrad.v
theories/PzCheck.v
theories/PzFinal.v
theories/PzEx.v
theories/PzProps.v
theories/CopyFinal.v
theories/CopyEx.v
theories/CopyProps.v
theories/NamesModel.v
theories/NamesSpec.v
theories/NamesProofs.v
theories/NamesUnique.v
theories/NamesHalt.v
theories/NamesFinal.v
theories/NamesNumber.v
theories/NamesProps.v
theories/RunModel.v
theories/RunSpec.v
theories/RunProofs.v
theories/RunProps.v
theories/CheckModel.v
theories/CheckSpec.v
theories/CheckProofs.v
theories/CheckEx.v
theories/CheckProps.v
theories/InstModel.v
theories/InstSpec.v
theories/InstProofs.v
theories/InstEx.v
theories/InstProps.v
theories/ConcatModel.v
theories/ConcatSpec.v
theories/ConcatProofs.v
theories/ConcatOps.v
theories/ConcatCalls.v
theories/ConcatCons.v
theories/ConcatFinal.v
theories/ConcatEx.v
theories/ConcatProps.v
theories/RavelModel.v
theories/RavelSpec.v
theories/RavelProofs.v
theories/RavelProps.v
theories/FlatModel.v
theories/FlatSpec.v
theories/FlatProofs.v
theories/FlatLabels.v
theories/FlatFinal.v
theories/FlatFind.v
theories/FlatEx.v
theories/FlatProps.v
theories/DomSpec.v
theories/DomProofs.v
theories/DomReal.v
theories/DomEx.v
theories/DomProps.v
theories/ArrModel.v
theories/ArrSpec.v
theories/ArrProofs.v
theories/ArrProofs2.v
theories/ArrProofs3.v
theories/ArrProofs4.v
theories/ArrEx.v
theories/ArrProps.v
theories/MethModel.v
theories/MethSpec.v
theories/MethProofs.v
theories/MethProofs2.v
theories/MethProofs3.v
theories/MethProofs4.v
theories/MethEx.v
theories/MethFinal.v
theories/MethProps.v
theories/GmModel.v
theories/GmSpec.v
theories/GmInd.v
theories/GmProofs.v
theories/GmFinal.v
theories/GmCopy.v
theories/GmEx.v
theories/GmProps.v
theories/OwModel.v
theories/OwSpec.v
theories/OwProofs.v
theories/OwRun.v
theories/OwFinal.v
theories/OwLast.v
theories/OwEx.v
theories/OwProps.v
theories/HkModel.v
theories/HkSpec.v
theories/HkProofs.v
theories/HkInv.v
theories/HkFinal.v
theories/HkCalls.v
theories/HkWatch.v
theories/HkMain.v
theories/HkRuns.v
theories/HkLast.v
theories/HkEx.v
theories/HkProps.v
theories/ReModel.v
theories/ReSpec.v
theories/ReProofs.v
theories/ReEx.v
theories/ReProps.v
theories/GcModel.v
theories/GcSpec.v
theories/GcProofs.v
theories/GcProps.v
theories/WrModel.v
theories/WrSpec.v
theories/WrProofs.v
theories/WrProps.v
theories/VbModel.v
theories/VbSpec.v
theories/VbProofs.v
theories/VbProps.v
theories/PkModel.v
theories/PkSpec.v
theories/PkProofs.v
theories/PkFail.v
theories/PkFinal.v
theories/PkProps.v
theories/RrModel.v
theories/RrSpec.v
theories/RrProofs.v
theories/RrFinal.v
theories/RrProps.v
theories/SlModel.v
theories/SlSpec.v
theories/SlProofs.v
theories/SlHist.v
theories/SlStep.v
theories/SlFinal.v
theories/SlEx.v
theories/SlProps.v
theories/PaModel.v
theories/PaSpec.v
theories/PaProofs.v
theories/PaProps.v
theories/IpModel.v
theories/IpSpec.v
theories/IpProofs.v
theories/IpProps.v
theories/PrModel.v
theories/PrSpec.v
theories/PrProofs.v
theories/PrFinal.v
theories/PrParts.v
theories/PrLast.v
theories/PrEx.v
theories/PrProps.v
theories/BdModel.v
theories/BdSpec.v
theories/BdProofs.v
theories/BdProofs2.v
theories/BdProofs3.v
theories/BdProofs4.v
theories/BdEx.v
theories/BdProps.v
theories/OeModel.v
theories/OeSpec.v
theories/OeProofs.v
theories/OeEx.v
theories/OeProps.v
theories/CnModel.v
theories/CnSpec.v
theories/CnProofs.v
theories/CnProofs2.v
theories/CnEx.v
theories/CnProps.v
theories/IoModel.v
theories/IoSpec.v
theories/IoProofs.v
theories/IoProofs2.v
theories/IoProofs3.v
theories/IoProofs4.v
theories/IoEx.v
theories/IoProps.v
theories/HcModel.v
theories/HcSpec.v
theories/HcProofs.v
theories/HcProofs2.v
theories/HcProofs3.v
theories/HcEx.v
theories/HcProps.v
theories/SvModel.v
theories/SvSpec.v
theories/SvProofs.v
theories/SvEx.v
theories/SvProps.v
theories/UfModel.v
theories/UfSpec.v
theories/UfProofs.v
theories/UfEx.v
theories/UfProps.v
theories/HtModel.v
theories/HtSpec.v
theories/HtProofs.v
theories/HtFinal.v
theories/HtLast.v
theories/HtEx.v
theories/HtProps.v
