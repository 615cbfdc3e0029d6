(** The bytecode of the verifier: VerifierMetaData.Bin of
    /repo/zkmultiswap/gnark-tests/solidity/solidity_groth16.go:208, which is also the "bin" of Verifier in
    /repo/zkmultiswap/gnark-tests/solidity/abi/combined.json. *)
From Coq Require Import ZArith Ascii String List.
Import ListNotations.
Open Scope Z_scope.

(** common.FromHex *)
Definition hex_digit (a : ascii) : Z := let n := Z.of_nat (nat_of_ascii a) in if n <? 58 then n - 48 else n - 87.
Fixpoint from_hex (s : string) : list Z :=
  match s with
  | String a (String b s) => 16 * hex_digit a + hex_digit b :: from_hex s
  | _ => []
  end.

Local Open Scope string_scope.
Definition VerifierBin : list Z := Eval vm_compute in from_hex (
  "608060405234801561001057600080fd5b50611fa8806100206000396000f3fe608060405234801561001057600080fd5b506004361061002b5760003560e01c8063c894e75714610030575b600080fd5b61004a60048036038101906100459190611802"
  ++ "565b610060565b6040516100579190611886565b60405180910390f35b600061006a61139e565b604051806040016040528087600060028110610089576100886118a1565b5b60200201518152602001876001600281106100a7576100a66118a1565b5b"
  ++ "6020020151815250816000018190525060405180604001604052806040518060400160405280886000600281106100e1576100e06118a1565b5b60200201516000600281106100f9576100f86118a1565b5b602002015181526020018860006002811061"
  ++ "0117576101166118a1565b5b602002015160016002811061012f5761012e6118a1565b5b6020020151815250815260200160405180604001604052808860016002811061015b5761015a6118a1565b5b6020020151600060028110610173576101726118"
  ++ "a1565b5b6020020151815260200188600160028110610191576101906118a1565b5b60200201516001600281106101a9576101a86118a1565b5b602002015181525081525081602001819052506040518060400160405280856000600281106101db5761"
  ++ "01da6118a1565b5b60200201518152602001856001600281106101f9576101f86118a1565b5b602002015181525081604001819052506000610213610735565b90506000604051806040016040528060008152602001600081525090507f30644e72e131"
  ++ "a029b85045b68181585d97816a916871ca8d3c208c16d87cfd478360000151600001511061029a576040517f08c379a00000000000000000000000000000000000000000000000000000000081526004016102919061192d565b60405180910390fd5b7f"
  ++ "30644e72e131a029b85045b68181585d97816a916871ca8d3c208c16d87cfd4783600001516020015110610304576040517f08c379a00000000000000000000000000000000000000000000000000000000081526004016102fb90611999565b60405180"
  ++ "910390fd5b7f30644e72e131a029b85045b68181585d97816a916871ca8d3c208c16d87cfd47836020015160000151600060028110610341576103406118a1565b5b602002015110610386576040517f08c379a000000000000000000000000000000000"
  ++ "000000000000000000000000815260040161037d90611a05565b60405180910390fd5b7f30644e72e131a029b85045b68181585d97816a916871ca8d3c208c16d87cfd478360200151602001516000600281106103c3576103c26118a1565b5b60200201"
  ++ "5110610408576040517f08c379a00000000000000000000000000000000000000000000000000000000081526004016103ff90611a71565b60405180910390fd5b7f30644e72e131a029b85045b68181585d97816a916871ca8d3c208c16d87cfd478360"
  ++ "20015160000151600160028110610445576104446118a1565b5b60200201511061048a576040517f08c379a000000000000000000000000000000000000000000000000000000000815260040161048190611add565b60405180910390fd5b7f30644e72"
  ++ "e131a029b85045b68181585d97816a916871ca8d3c208c16d87cfd478360200151602001516001600281106104c7576104c66118a1565b5b60200201511061050c576040517f08c379a00000000000000000000000000000000000000000000000000000"
  ++ "0000815260040161050390611b49565b60405180910390fd5b7f30644e72e131a029b85045b68181585d97816a916871ca8d3c208c16d87cfd4783604001516000015110610576576040517f08c379a00000000000000000000000000000000000000000"
  ++ "0000000000000000815260040161056d90611bb5565b60405180910390fd5b7f30644e72e131a029b85045b68181585d97816a916871ca8d3c208c16d87cfd47836040015160200151106105e0576040517f08c379a00000000000000000000000000000"
  ++ "000000000000000000000000000081526004016105d790611c21565b60405180910390fd5b60005b60078110156106cb577f30644e72e131a029b85045b68181585d2833e84879b9709143e1f593f00000018682600781106106205761061f6118a1565b"
  ++ "5b602002015110610665576040517f08c379a000000000000000000000000000000000000000000000000000000000815260040161065c90611c8d565b60405180910390fd5b6106b6826106b1856080015160018561067e9190611cdc565b6008811061"
  ++ "068f5761068e6118a1565b5b60200201518985600781106106a7576106a66118a1565b5b6020020151610d94565b610e6c565b915080806106c390611d10565b9150506105e3565b506106f28183608001516000600881106106e8576106e76118a1565b"
  ++ "5b6020020151610e6c565b90506107286107048460000151610f6a565b84602001518460000151856020015185876040015189604001518960600151611028565b9350505050949350505050565b61073d6113d1565b60405180604001604052807f08d9"
  ++ "4f29090c5a2514a42e7710bc460da13350c5d953906c888218123dc735e081526020017f11913b7462a18827b73eb8defff4d69f654d29d937e5a8d5bcd67b5cd9c609ad8152508160000181905250604051806040016040528060405180604001604052"
  ++ "807f286819b403cf450448c0b5f17ded11aea34763a51897d9a1f0540808cf4c396481526020017f2aa9fe033abb9ed7ed19a93492e53e7ee0a5a68142ffac68641320176e9d7aef815250815260200160405180604001604052807f23a52d495c176529"
  ++ "7877f8e5663bfdcbe726fccba1f18c76880d5f4ed8f0024d81526020017f10cd48dbf552bb1d2b71588dbd63a97504e2d2b5d5a93c8dd6853059d8cc0f6d8152508152508160200181905250604051806040016040528060405180604001604052807f2b"
  ++ "03e06618909e861c980d411a147039db9519cb388469126a81a1696f38409881526020017f11cba7526c8ad6151e133a63818c17b5ee75e00bc15c2ad66d8a474710b413bd815250815260200160405180604001604052807f2e3f3077f89211208b874f"
  ++ "98f90afa76e2f3d63223fdd90e315b340e3f85442581526020017f1038bbe9ea771c0091c05ee4a5d40ff5683c1e8179b5532275a26a0937f916968152508152508160400181905250604051806040016040528060405180604001604052807f2ec580d5"
  ++ "cdee6a2df48f463fd8c3191d6170ef3969be2cd196308b9218b4cd9381526020017f01236faf829813621a5bae61429f8827a8f0abd198eac6b26b89ac0503e28b52815250815260200160405180604001604052807f0f580c1189e7bc1abd09b2925bac"
  ++ "8a8b378259053f0e2230a93ce5b6821bc49381526020017f178af6471510ee7cbc62410718b73e1f0cf85a6f5a824f0a4a673e8ec5db379d815250815250816060018190525060405180604001604052807f034682702455c9df8e2727c57c00e953779d"
  ++ "7321a59c0e9d542c191a200bdf2781526020017f25b3163d06ef6ea221feb2115ff1ce5c998d6db235ae7d24eda7d2e9f3e64fa78152508160800151600060088110610a5657610a556118a1565b5b602002018190525060405180604001604052807f1e"
  ++ "bf61a3bfa170bc0467ef07b9dab95bf975823b0f2cd4a7ce0720f29df049dc81526020017f27e04ea03b074880d3d342893f564b81b00cb4108d0618e48ed185632f887b668152508160800151600160088110610acb57610aca6118a1565b5b60200201"
  ++ "8190525060405180604001604052807f1a95d71e69c7fbe3af71e97d11e8b191b79e6b4414060a8c65d428910e29f9f081526020017f1ab9ddfdde14b26c23df2dae5dc01a43499aeaf60797162eb43396e2577d57e68152508160800151600260088110"
  ++ "610b4057610b3f6118a1565b5b602002018190525060405180604001604052807f2933e999f26108e6504790e50504f4ae8699a9303f3fe73cbc9d01e6720eb24a81526020017f01126c2413f0dde513738efcafa452d18022228473d49172f30b434212"
  ++ "011dcb8152508160800151600360088110610bb557610bb46118a1565b5b602002018190525060405180604001604052807f1c6b525c45434cd601375cb0e3fe00c3d4612209d153cd151456b15fe4c3195381526020017f2e7701fe54b2b8a768377637"
  ++ "2e33787b296802e90c5032782d239a59a6476ca58152508160800151600460088110610c2a57610c296118a1565b5b602002018190525060405180604001604052807f0a0bd2e51d659c86934d0ac4d7e502f88af7e7b2d198bdea058f0c7fbb2457e981"
  ++ "526020017f143087a2d0875b17e0c60f8785dcfe053ffa84edaefb5e853bf63547cb1154628152508160800151600560088110610c9f57610c9e6118a1565b5b602002018190525060405180604001604052807f05fc44c911c601af4217173948d60895"
  ++ "f5b50b59c013e96921b5a9d1f4ddc41581526020017f1613c26b77228e6e59dbaf7659c0fd7f628f9528d10570321039f1c38b723de98152508160800151600660088110610d1457610d136118a1565b5b60200201819052506040518060400160405280"
  ++ "7f2a7c271b3e5676fadc08afdd0015d235e36eb28a4e6fdcf8edecb2c8a1b6050e81526020017f22241f97cdefc9d35c9e629592d3cb5f67d36f8788446522e9643d25fc6dbafb8152508160800151600760088110610d8957610d886118a1565b5b6020"
  ++ "02018190525090565b610d9c61141e565b610da4611438565b836000015181600060038110610dbd57610dbc6118a1565b5b602002018181525050836020015181600160038110610ddf57610dde6118a1565b5b60200201818152505082816002600381"
  ++ "10610dfd57610dfc6118a1565b5b602002018181525050600060608360808460076107d05a03fa90508060008103610e2357fe5b5080610e64576040517f08c379a000000000000000000000000000000000000000000000000000000000815260040161"
  ++ "0e5b90611da4565b60405180910390fd5b505092915050565b610e7461141e565b610e7c61145a565b836000015181600060048110610e9557610e946118a1565b5b602002018181525050836020015181600160048110610eb757610eb66118a1565b5b"
  ++ "602002018181525050826000015181600260048110610ed957610ed86118a1565b5b602002018181525050826020015181600360048110610efb57610efa6118a1565b5b602002018181525050600060608360c08460066107d05a03fa90508060008103"
  ++ "610f2157fe5b5080610f62576040517f08c379a0000000000000000000000000000000000000000000000000000000008152600401610f5990611e10565b60405180910390fd5b505092915050565b610f7261141e565b60008260000151148015610f8a"
  ++ "575060008260200151145b15610fad5760405180604001604052806000815260200160008152509050611023565b6040518060400160405280836000015181526020017f30644e72e131a029b85045b68181585d97816a916871ca8d3c208c16d87cfd47"
  ++ "8460200151610ff29190611e5f565b7f30644e72e131a029b85045b68181585d97816a916871ca8d3c208c16d87cfd4761101d9190611e90565b81525090505b919050565b60008060405180608001604052808b81526020018981526020018781526020"
  ++ "01858152509050600060405180608001604052808b815260200189815260200187815260200185815250905060006018905060008167ffffffffffffffff81111561109557611094611539565b5b60405190808252806020026020018201604052801561"
  ++ "10c35781602001602082028036833780820191505090505b50905060005b60048110156113015760006006826110e19190611ec4565b90508582600481106110f6576110f56118a1565b5b6020020151600001518360008361110d9190611cdc565b8151"
  ++ "811061111e5761111d6118a1565b5b60200260200101818152505085826004811061113d5761113c6118a1565b5b602002015160200151836001836111549190611cdc565b81518110611165576111646118a1565b5b6020026020010181815250508482"
  ++ "60048110611184576111836118a1565b5b6020020151600001516000600281106111a05761119f6118a1565b5b6020020151836002836111b39190611cdc565b815181106111c4576111c36118a1565b5b60200260200101818152505084826004811061"
  ++ "11e3576111e26118a1565b5b6020020151600001516001600281106111ff576111fe6118a1565b5b6020020151836003836112129190611cdc565b81518110611223576112226118a1565b5b602002602001018181525050848260048110611242576112"
  ++ "416118a1565b5b60200201516020015160006002811061125e5761125d6118a1565b5b6020020151836004836112719190611cdc565b81518110611282576112816118a1565b5b6020026020010181815250508482600481106112a1576112a06118a156"
  ++ "5b5b6020020151602001516001600281106112bd576112bc6118a1565b5b6020020151836005836112d09190611cdc565b815181106112e1576112e06118a1565b5b6020026020010181815250505080806112f990611d10565b9150506110c9565b5061"
  ++ "130a61147c565b6000602082602086026020860160086107d05a03fa9050806000810361132c57fe5b508061136d576040517f08c379a000000000000000000000000000000000000000000000000000000000815260040161136490611f52565b604051"
  ++ "80910390fd5b600082600060018110611383576113826118a1565b5b60200201511415965050505050505098975050505050505050565b60405180606001604052806113b161141e565b81526020016113be61149e565b81526020016113cb61141e565b"
  ++ "81525090565b6040518060a001604052806113e461141e565b81526020016113f161149e565b81526020016113fe61149e565b815260200161140b61149e565b81526020016114186114c4565b81525090565b6040518060400160405280600081526020"
  ++ "01600081525090565b6040518060600160405280600390602082028036833780820191505090505090565b6040518060800160405280600490602082028036833780820191505090505090565b6040518060200160405280600190602082028036833780"
  ++ "820191505090505090565b60405180604001604052806114b16114f2565b81526020016114be6114f2565b81525090565b6040518061010001604052806008905b6114dc61141e565b8152602001906001900390816114d45790505090565b6040518060"
  ++ "400160405280600290602082028036833780820191505090505090565b6000604051905090565b600080fd5b600080fd5b6000601f19601f8301169050919050565b7f4e487b710000000000000000000000000000000000000000000000000000000060"
  ++ "0052604160045260246000fd5b61157182611528565b810181811067ffffffffffffffff821117156115905761158f611539565b5b80604052505050565b60006115a3611514565b90506115af8282611568565b919050565b600067ffffffffffffffff"
  ++ "8211156115cf576115ce611539565b5b602082029050919050565b600080fd5b6000819050919050565b6115f2816115df565b81146115fd57600080fd5b50565b60008135905061160f816115e9565b92915050565b6000611628611623846115b4565b"
  ++ "611599565b90508060208402830185811115611642576116416115da565b5b835b8181101561166b57806116578882611600565b845260208401935050602081019050611644565b5050509392505050565b600082601f83011261168a57611689611523"
  ++ "565b5b6002611697848285611615565b91505092915050565b600067ffffffffffffffff8211156116bb576116ba611539565b5b602082029050919050565b60006116d96116d4846116a0565b611599565b905080604084028301858111156116f35761"
  ++ "16f26115da565b5b835b8181101561171c57806117088882611675565b8452602084019350506040810190506116f5565b5050509392505050565b600082601f83011261173b5761173a611523565b5b60026117488482856116c6565b91505092915050"
  ++ "565b600067ffffffffffffffff82111561176c5761176b611539565b5b602082029050919050565b600061178a61178584611751565b611599565b905080602084028301858111156117a4576117a36115da565b5b835b818110156117cd57806117b988"
  ++ "82611600565b8452602084019350506020810190506117a6565b5050509392505050565b600082601f8301126117ec576117eb611523565b5b60076117f9848285611777565b91505092915050565b6000806000806101e0858703121561181d5761181c"
  ++ "61151e565b5b600061182b87828801611675565b945050604061183c87828801611726565b93505060c061184d87828801611675565b92505061010061185f878288016117d7565b91505092959194509250565b60008115159050919050565b61188081"
  ++ "61186b565b82525050565b600060208201905061189b6000830184611877565b92915050565b7f4e487b7100000000000000000000000000000000000000000000000000000000600052603260045260246000fd5b600082825260208201905092915050"
  ++ "565b7f76657269666965722d61582d6774652d7072696d652d71000000000000000000600082015250565b60006119176017836118d0565b9150611922826118e1565b602082019050919050565b60006020820190508181036000830152611946816119"
  ++ "0a565b9050919050565b7f76657269666965722d61592d6774652d7072696d652d71000000000000000000600082015250565b60006119836017836118d0565b915061198e8261194d565b602082019050919050565b6000602082019050818103600083"
  ++ "01526119b281611976565b9050919050565b7f76657269666965722d6258302d6774652d7072696d652d710000000000000000600082015250565b60006119ef6018836118d0565b91506119fa826119b9565b602082019050919050565b600060208201"
  ++ "90508181036000830152611a1e816119e2565b9050919050565b7f76657269666965722d6259302d6774652d7072696d652d710000000000000000600082015250565b6000611a5b6018836118d0565b9150611a6682611a25565b602082019050919050"
  ++ "565b60006020820190508181036000830152611a8a81611a4e565b9050919050565b7f76657269666965722d6258312d6774652d7072696d652d710000000000000000600082015250565b6000611ac76018836118d0565b9150611ad282611a91565b60"
  ++ "2082019050919050565b60006020820190508181036000830152611af681611aba565b9050919050565b7f76657269666965722d6259312d6774652d7072696d652d710000000000000000600082015250565b6000611b336018836118d0565b9150611b"
  ++ "3e82611afd565b602082019050919050565b60006020820190508181036000830152611b6281611b26565b9050919050565b7f76657269666965722d63582d6774652d7072696d652d71000000000000000000600082015250565b6000611b9f60178361"
  ++ "18d0565b9150611baa82611b69565b602082019050919050565b60006020820190508181036000830152611bce81611b92565b9050919050565b7f76657269666965722d63592d6774652d7072696d652d71000000000000000000600082015250565b60"
  ++ "00611c0b6017836118d0565b9150611c1682611bd5565b602082019050919050565b60006020820190508181036000830152611c3a81611bfe565b9050919050565b7f76657269666965722d6774652d736e61726b2d7363616c61722d6669656c640060"
  ++ "0082015250565b6000611c77601f836118d0565b9150611c8282611c41565b602082019050919050565b60006020820190508181036000830152611ca681611c6a565b9050919050565b7f4e487b71000000000000000000000000000000000000000000"
  ++ "00000000000000600052601160045260246000fd5b6000611ce7826115df565b9150611cf2836115df565b9250828201905080821115611d0a57611d09611cad565b5b92915050565b6000611d1b826115df565b91507fffffffffffffffffffffffffff"
  ++ "ffffffffffffffffffffffffffffffffffffff8203611d4d57611d4c611cad565b5b600182019050919050565b7f70616972696e672d6d756c2d6661696c65640000000000000000000000000000600082015250565b6000611d8e6012836118d0565b91"
  ++ "50611d9982611d58565b602082019050919050565b60006020820190508181036000830152611dbd81611d81565b9050919050565b7f70616972696e672d6164642d6661696c65640000000000000000000000000000600082015250565b6000611dfa60"
  ++ "12836118d0565b9150611e0582611dc4565b602082019050919050565b60006020820190508181036000830152611e2981611ded565b9050919050565b7f4e487b7100000000000000000000000000000000000000000000000000000000600052601260"
  ++ "045260246000fd5b6000611e6a826115df565b9150611e75836115df565b925082611e8557611e84611e30565b5b828206905092915050565b6000611e9b826115df565b9150611ea6836115df565b9250828203905081811115611ebe57611ebd611cad"
  ++ "565b5b92915050565b6000611ecf826115df565b9150611eda836115df565b9250828202611ee8816115df565b91508282048414831517611eff57611efe611cad565b5b5092915050565b7f70616972696e672d6f70636f64652d6661696c6564000000"
  ++ "0000000000000000600082015250565b6000611f3c6015836118d0565b9150611f4782611f06565b602082019050919050565b60006020820190508181036000830152611f6b81611f2f565b905091905056fea26469706673582212203040049f10fa16"
  ++ "6032bd8ec711f8b85087c0364df5615a22a5f0d94d61ef916b64736f6c63430008150033").
