-Q theories Verif
theories/Base.v
theories/ModelBC.v
theories/ModelBlock.v
theories/ModelBondAssoc.v
theories/ModelBondPlastic.v
theories/ModelBondVolume.v
theories/ModelBondWeight.v
theories/ModelCompute.v
theories/ModelContact.v
theories/ModelContactSearch.v
theories/ModelConvert.v
theories/ModelCopy.v
theories/ModelCorr.v
theories/ModelCylinder.v
theories/ModelDamage.v
theories/ModelData.v
theories/ModelDiffusion.v
theories/ModelDistribute.v
theories/ModelEnergy.v
theories/ModelError.v
theories/ModelExplicit.v
theories/ModelField.v
theories/ModelFilter.v
theories/ModelForce.v
theories/ModelGeom.v
theories/ModelGlobal.v
theories/ModelGrid.v
theories/ModelInput.v
theories/ModelInteractions.v
theories/ModelInterface.v
theories/ModelJ2.v
theories/ModelLine.v
theories/ModelLinear.v
theories/ModelMesh.v
theories/ModelNeedle.v
theories/ModelNeigh.v
theories/ModelNewmark.v
theories/ModelNodeSet.v
theories/ModelOutput.v
theories/ModelPals.v
theories/ModelParallel.v
theories/ModelPlastic.v
theories/ModelPrint.v
theories/ModelQuasi.v
theories/ModelRefine.v
theories/ModelRestart.v
theories/ModelScalar.v
theories/ModelShear.v
theories/ModelTangent.v
theories/ModelTree.v
theories/ModelVtk.v
theories/Num.v
theories/ProofBC.v
theories/ProofBC2.v
theories/ProofBlock.v
theories/ProofBondAssoc.v
theories/ProofBondAssoc2.v
theories/ProofBondAssoc3.v
theories/ProofBondAssoc4.v
theories/ProofBondForce.v
theories/ProofBondForce2.v
theories/ProofBondForce3.v
theories/ProofBondForce4.v
theories/ProofBondForce5.v
theories/ProofBondForce6.v
theories/ProofBondPlastic.v
theories/ProofBondPlastic2.v
theories/ProofBondStress.v
theories/ProofBondVolume.v
theories/ProofContact.v
theories/ProofContact2.v
theories/ProofContact3.v
theories/ProofContactSearch.v
theories/ProofContactSearch2.v
theories/ProofConvert.v
theories/ProofCopy.v
theories/ProofCorr.v
theories/ProofCorr2.v
theories/ProofCorr3.v
theories/ProofCorr4.v
theories/ProofCorr5.v
theories/ProofCorr6.v
theories/ProofCoupled.v
theories/ProofCubic.v
theories/ProofCylinder.v
theories/ProofCylinder2.v
theories/ProofDamage.v
theories/ProofData.v
theories/ProofDiffusion.v
theories/ProofDistribute.v
theories/ProofDistribute2.v
theories/ProofEnergy.v
theories/ProofEnergy2.v
theories/ProofEnergy3.v
theories/ProofEnergy4.v
theories/ProofEnergy5.v
theories/ProofEnergy6.v
theories/ProofError.v
theories/ProofExplicit.v
theories/ProofExplicit2.v
theories/ProofExplicit3.v
theories/ProofField.v
theories/ProofFilter.v
theories/ProofFilter2.v
theories/ProofForce.v
theories/ProofFrame.v
theories/ProofGeom.v
theories/ProofGeom2.v
theories/ProofGeom3.v
theories/ProofGlobal.v
theories/ProofGlobal2.v
theories/ProofGrid.v
theories/ProofGrid2.v
theories/ProofInput.v
theories/ProofInteractions.v
theories/ProofInterface.v
theories/ProofJ2.v
theories/ProofJ22.v
theories/ProofJ23.v
theories/ProofJ24.v
theories/ProofKernels.v
theories/ProofLine.v
theories/ProofMaterial.v
theories/ProofMesh.v
theories/ProofNeedle.v
theories/ProofNeedle2.v
theories/ProofNeigh.v
theories/ProofNewmark.v
theories/ProofNodeSet.v
theories/ProofOutput.v
theories/ProofPals.v
theories/ProofPals2.v
theories/ProofPals3.v
theories/ProofPals4.v
theories/ProofPals5.v
theories/ProofPals6.v
theories/ProofParallel.v
theories/ProofParallel2.v
theories/ProofPlastic.v
theories/ProofPrint.v
theories/ProofQuasi.v
theories/ProofQuasi2.v
theories/ProofRefine.v
theories/ProofRestart.v
theories/ProofRestart2.v
theories/ProofRot.v
theories/ProofRot2.v
theories/ProofScalar.v
theories/ProofShear.v
theories/ProofShear2.v
theories/ProofShear3.v
theories/ProofSphere.v
theories/ProofSphere2.v
theories/ProofSphere3.v
theories/ProofSphere4.v
theories/ProofStep.v
theories/ProofTangent.v
theories/ProofTangent10.v
theories/ProofTangent2.v
theories/ProofTangent3.v
theories/ProofTangent4.v
theories/ProofTangent5.v
theories/ProofTangent6.v
theories/ProofTangent7.v
theories/ProofTangent8.v
theories/ProofTangent9.v
theories/ProofTree.v
theories/ProofTree2.v
theories/ProofVisco.v
theories/ProofVtk.v
theories/ProofYield.v
theories/PropAperture.v
theories/PropBC.v
theories/PropBlock.v
theories/PropBondAssoc.v
theories/PropBondForce.v
theories/PropBondPlastic.v
theories/PropBondStress.v
theories/PropBondVolume.v
theories/PropBondWeight.v
theories/PropCompute.v
theories/PropContact.v
theories/PropContactSearch.v
theories/PropConvert.v
theories/PropConvert2.v
theories/PropCopy.v
theories/PropCorr.v
theories/PropCylinder.v
theories/PropDamage.v
theories/PropData.v
theories/PropDiffusion.v
theories/PropEnergy.v
theories/PropError.v
theories/PropExplicit.v
theories/PropField.v
theories/PropFilter.v
theories/PropForce.v
theories/PropGeom.v
theories/PropGlobal.v
theories/PropGrid.v
theories/PropHard.v
theories/PropInput.v
theories/PropInteractions.v
theories/PropInterface.v
theories/PropJ2.v
theories/PropLine.v
theories/PropLinear.v
theories/PropMesh.v
theories/PropNeedle.v
theories/PropNewmark.v
theories/PropNodeSet.v
theories/PropOutput.v
theories/PropPals.v
theories/PropParallel.v
theories/PropPlastic.v
theories/PropPrint.v
theories/PropQuasi.v
theories/PropRefine.v
theories/PropRestart.v
theories/PropRestart2.v
theories/PropReturn.v
theories/PropRot.v
theories/PropScalar.v
theories/PropShear.v
theories/PropSphere.v
theories/PropTangent.v
theories/PropTree.v
theories/PropVtk.v
theories/SpecBC.v
theories/SpecBlock.v
theories/SpecBondAssoc.v
theories/SpecBondForce.v
theories/SpecBondPlastic.v
theories/SpecBondVolume.v
theories/SpecBondWeight.v
theories/SpecCompute.v
theories/SpecContact.v
theories/SpecContactSearch.v
theories/SpecConvert.v
theories/SpecCopy.v
theories/SpecCorr.v
theories/SpecCylinder.v
theories/SpecDamage.v
theories/SpecData.v
theories/SpecDiffusion.v
theories/SpecEnergy.v
theories/SpecError.v
theories/SpecExplicit.v
theories/SpecField.v
theories/SpecFilter.v
theories/SpecForce.v
theories/SpecGeom.v
theories/SpecGlobal.v
theories/SpecGrid.v
theories/SpecInput.v
theories/SpecInteractions.v
theories/SpecInterface.v
theories/SpecJ2.v
theories/SpecLine.v
theories/SpecLinear.v
theories/SpecMesh.v
theories/SpecNeedle.v
theories/SpecNewmark.v
theories/SpecNodeSet.v
theories/SpecOutput.v
theories/SpecPals.v
theories/SpecParallel.v
theories/SpecPlastic.v
theories/SpecPrint.v
theories/SpecQuasi.v
theories/SpecRefine.v
theories/SpecRestart.v
theories/SpecScalar.v
theories/SpecShear.v
theories/SpecTangent.v
theories/SpecTree.v
theories/SpecVtk.v
