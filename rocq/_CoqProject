-Q theories Verif
theories/Num.v
theories/NumXR.v
theories/NumF64.v
theories/Py.v
theories/Np.v
theories/Spec.v
theories/NpFacts.v
theories/XRFacts.v
theories/F64Facts.v
theories/F64Sums.v
theories/F64Step.v
theories/SFloat.v
theories/F64Vec.v
theories/F64Walk.v
theories/Hoare.v
theories/MENautilus.v
theories/PENautilus.v
theories/PENautilus2.v
theories/PENautilus3.v
theories/PENautilus4.v
theories/PENautilus5.v
theories/PENautilus6.v
theories/PropsENautilus.v
theories/MNavigator.v
theories/SNavigator.v
theories/PNavigator.v
theories/PNavigator2.v
theories/PNavigator3.v
theories/PNavigator4.v
theories/SNavOrder.v
theories/PNavOrder.v
theories/PNavigator5.v
theories/PNavigator6.v
theories/PropsOrder.v
theories/PNavigator7.v
theories/PNavigator8.v
theories/PNavigator9.v
theories/PropsNavigator.v
theories/MNimbus.v
theories/SNimbus.v
theories/PNimbus.v
theories/PNimbus2.v
theories/PNimbus3.v
theories/PNimbus4.v
theories/PNimbus5.v
theories/PNimbus6.v
theories/PNimbus7.v
theories/PNimbus8.v
theories/PropsNimbus.v
theories/MNimbusPlot.v
theories/SNimbusPlot.v
theories/PNimbusPlot.v
theories/PropsNimbusPlot.v
theories/SNimbus2.v
theories/PNimbus9.v
theories/PNimbus10.v
theories/PropsNimbus2.v
theories/SNimbus3.v
theories/PNimbus11.v
theories/MNimbusAsf.v
theories/PNimbus12.v
theories/PNimbus13.v
theories/PropsNimbus3.v
theories/PropsRejected.v
theories/PropsAnswers.v
theories/PropsNavRef.v
theories/MAsf.v
theories/PAsf.v
theories/MRpm.v
theories/SRpm.v
theories/PRpm.v
theories/PRpm2.v
theories/PRpm3.v
theories/PRpm4.v
theories/PropsRpm.v
theories/MNautilus.v
theories/SNautilus.v
theories/SNautBack.v
theories/PNautilus.v
theories/PNautilus2.v
theories/PNautilus3.v
theories/PNautilus4.v
theories/PNautilus5.v
theories/PNautilus6.v
theories/PNautilus7.v
theories/PNautilus8.v
theories/PNautilus9.v
theories/PNautilus10.v
theories/PNautilus11.v
theories/PropsNautilus.v
theories/PropsNautilus2.v
theories/PropsNautilus3.v
theories/PropsNautilus4.v
theories/MParetoNav.v
theories/SParetoNav.v
theories/PLp.v
theories/PParetoNav.v
theories/PParetoNav2.v
theories/PParetoNav3.v
theories/PParetoNav4.v
theories/PParetoNav5.v
theories/PParetoNav6.v
theories/PParetoNav7.v
theories/PParetoNav8.v
theories/PParetoNav9.v
theories/PropsParetoNav.v
theories/PParetoNavF.v
theories/PropsParetoNav2.v
theories/MPaint.v
theories/SPaint.v
theories/PPaint.v
theories/PPaint2.v
theories/PropsPaint.v
theories/MSolvers.v
theories/SSolvers.v
theories/SSolversF.v
theories/PSolvers.v
theories/PSolvers2.v
theories/PSolvers3.v
theories/PSolversF.v
theories/PropsSolvers.v
theories/PropsSolvers2.v
theories/PropsSolvers3.v
theories/PropsSolvers4.v
theories/MExports.v
theories/PropsExports.v
theories/PropsDoubles.v
theories/PropsDoubles2.v
theories/PropsDoubles3.v
theories/MNavAlias.v
theories/SNavAlias.v
theories/PNavAlias.v
theories/PropsNavAlias.v
theories/MObjects.v
theories/SObjects.v
theories/PObjects.v
theories/PropsObjects.v
theories/PContents.v
theories/PropsContents.v
theories/SENautilus.v
theories/PENautilus7.v
theories/PENautilus9.v
theories/PropsDoubles4.v
theories/PropsENautilus2.v
theories/SNavAny.v
theories/PNavigator10.v
theories/PropsDoubles5.v
theories/PENautilus8.v
theories/PropsDoubles6.v
theories/PropsInherit.v
theories/SFinish.v
theories/PropsFinish2.v
theories/PropsFinish.v
theories/SNimbus4.v
theories/PNimbus14.v
theories/PNimbus15.v
theories/PropsNimbus4.v
theories/SNautilusF.v
theories/PNautilusF.v
theories/PropsNautilus5.v
theories/SNavShift.v
theories/PNavShift.v
theories/PropsNavShift.v
theories/SENUnits.v
theories/PENUnits.v
theories/PENUnits2.v
theories/PropsENUnits.v
theories/F64Between.v
theories/PropsNimbusF64.v
theories/PropsRpmF64.v
theories/SNautShift.v
theories/PNautShift.v
theories/PropsNautShift.v
theories/SNimbusShift.v
theories/PNimbusShift.v
theories/PNimbusShift2.v
theories/PropsNimbusShift.v
theories/SPnShift.v
theories/PPnShift.v
theories/PropsPnShift.v
theories/SRpmOrder.v
theories/POrder.v
theories/PRpmOrder.v
theories/PropsRpmOrder.v
theories/SNautOrder.v
theories/PNautOrder.v
theories/PropsNautOrder.v
